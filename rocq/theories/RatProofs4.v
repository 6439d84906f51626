From Verif Require Import Base RangeModel AxisModel MeikModel EfitModel F64 RatModel RatSpec RatProofs RatProofs2 RatProofs3.
Open Scope Q_scope.

Lemma mapr_nth {A B} (f : A -> res B) l l' : mapr f l = Ok l' ->
  length l' = length l /\ forall i x, nth_error l i = Some x -> exists y, f x = Ok y /\ nth_error l' i = Some y.
Proof.
  revert l'. induction l as [|a t IH]; intros l' E; cbn [mapr] in E.
  - inversion E; subst. split; auto. intros [|i] x N; discriminate N.
  - apply rbind_ok in E. destruct E as (y & Ey & E). apply rbind_ok in E. destruct E as (r & Er & E). inversion E; subst l'.
    destruct (IH r Er) as [L N]. split; [cbn [length]; congruence|].
    intros [|i] x Nx.
    + inversion Nx; subst. exists y. split; auto.
    + apply (N i x Nx).
Qed.
Lemma nth_seq0 n i : (i < n)%nat -> nth_error (seq 0 n) i = Some i.
Proof.
  intro L. rewrite (nth_error_nth' _ 0%nat) by (rewrite seq_length; auto). rewrite seq_nth by auto. reflexivity.
Qed.
Lemma list_nth_eq {A} (l l' : list A) : length l = length l' -> (forall i, (i < length l)%nat -> nth_error l i = nth_error l' i) -> l = l'.
Proof.
  revert l'. induction l as [|a t IH]; intros [|b u] L N; cbn [length] in L; try discriminate; auto.
  pose proof (N 0%nat ltac:(cbn; lia)) as N0. cbn in N0. inversion N0; subst b. f_equal. apply IH; [lia|].
  intros i Li. apply (N (S i)). cbn. lia.
Qed.

(** the nominal amplitudes after SetNominalAmplitudes depend on the catalogue and on the number of lines only *)
Definition nominal_of (rows : list (list Q)) (i : nat) (e : elt) (n : list Q) : Prop :=
  exists l, nth_error rows i = Some l /\ length n = e_size e /\ forall j, (j < e_size e)%nat -> nth_error n j = nth_error l j.
Lemma set_nominal_ok rows i e e' : set_nominal rows i e = Ok e' -> exists n, e' = with_nom e n /\ nominal_of rows i e n.
Proof.
  unfold set_nominal. intro E. apply rbind_ok in E. destruct E as (l & El & E). apply rbind_ok in E. destruct E as (n & En & E).
  inversion E; subst. exists n. split; auto. apply vget_Ok in El. exists l. split; auto.
  apply mapr_nth in En. destruct En as [L N]. rewrite seq_length in L. split; auto. intros j Lj.
  destruct (N j j (nth_seq0 _ _ Lj)) as (y & Ey & Ny). apply vget_Ok in Ey. congruence.
Qed.
Lemma nominal_unique rows i e e2 n n2 : e_size e = e_size e2 -> nominal_of rows i e n -> nominal_of rows i e2 n2 -> n = n2.
Proof.
  intros Sz (l & El & Ln & N) (l2 & El2 & Ln2 & N2). assert (l2 = l) by congruence. subst l2.
  apply list_nth_eq; [congruence|]. intros j Lj. rewrite Ln in Lj. rewrite N by auto. rewrite N2 by (rewrite <- Sz; auto). reflexivity.
Qed.

(** e2 has the lines of e1 *)
Definition lines_eq (e1 e2 : elt) : Prop := same_lines e1 e2.
Lemma lines_refl e : same_lines e e.
Proof. repeat split. Qed.
Lemma lines_trans a b c : same_lines a b -> same_lines b c -> same_lines a c.
Proof. unfold same_lines. intuition congruence. Qed.
Lemma lines_sym a b : same_lines a b -> same_lines b a.
Proof. unfold same_lines. intuition congruence. Qed.
Lemma lines_size a b : same_lines a b -> e_size b = e_size a.
Proof. unfold same_lines, e_size. intuition congruence. Qed.

Lemma F2_refl {A} (R : A -> A -> Prop) l : (forall x, R x x) -> Forall2 R l l.
Proof. intro H. induction l; constructor; auto. Qed.
Lemma F2_trans {A} (R : A -> A -> Prop) l1 l2 l3 : (forall x y z, R x y -> R y z -> R x z) -> Forall2 R l1 l2 -> Forall2 R l2 l3 -> Forall2 R l1 l3.
Proof.
  intros T H. revert l3. induction H as [|x y t u Hxy _ IH]; intros l3 H3; inversion H3; subst; constructor; eauto.
Qed.

Lemma set_nominals_ok rows i es es' : set_nominals rows i es = Ok es' ->
  Forall2 (fun e e' => exists n, e' = with_nom e n) es es' /\
  forall j e', nth_error es' j = Some e' -> nominal_of rows (i + j) e' (e_nom e').
Proof.
  revert i es'. induction es as [|e t IH]; intros i es' E; cbn [set_nominals] in E.
  - inversion E; subst. split; [constructor|]. intros [|j] e' N; discriminate N.
  - apply rbind_ok in E. destruct E as (x & Ex & E). apply rbind_ok in E. destruct E as (r & Er & E). inversion E; subst es'.
    apply set_nominal_ok in Ex. destruct Ex as (n & -> & Nx). destruct (IH (S i) r Er) as [F N]. split.
    + constructor; eauto.
    + intros [|j] e' Ne.
      * inversion Ne; subst. rewrite Nat.add_0_r. exact Nx.
      * rewrite Nat.add_succ_r. apply (N j e' Ne).
Qed.

Section R.
  Context {C : Type}.
  Variable v : env C.
  (** the elements after setTplratioModel *)
  Lemma setTplratioModel_ok c r es es' : setTplratioModel v c r es = Ok es' ->
    exists g, (0 <= r)%Z /\ nth_error (cat v) (Z.to_nat r) = Some g /\ Forall2 same_lines es es' /\
      forall j e', nth_error es' j = Some e' -> nominal_of (g_nom g) j e' (e_nom e').
  Proof.
    unfold setTplratioModel, SetNominalAmplitudes. intro E. apply rbind_ok in E. destruct E as (es1 & E & E').
    destruct (Z.ltb_spec r 0) as [L|L]; [discriminate|]. destruct (Z.leb_spec (Z.of_nat (length (cat v))) r) as [M|M]; [discriminate|].
    cbn [orb] in E. apply rbind_ok in E. destruct E as (g & Eg & E). apply vget_Ok in Eg. exists g. split; auto. split; auto.
    apply set_nominals_ok in E. destruct E as [F N]. inversion E'; subst es'; clear E'. unfold setLyaProfile. split.
    - clear N. induction F as [|a b t u Hab _ IH]; cbn [map]; constructor; auto. destruct Hab as [n ->].
      destruct (lya v c r (with_nom a n)). repeat split.
    - intros j e' Ne. rewrite nth_error_map in Ne. destruct (nth_error es1 j) as [e1|] eqn:E1; [|discriminate].
      cbn in Ne. inversion Ne; subst e'. pose proof (N j e1 E1) as No. cbn in No. destruct (lya v c r e1). exact No.
  Qed.
  (** the fitters and the rules change the amplitudes only *)
  Definition keeps (e e' : elt) : Prop := same_lines e e' /\ e_nom e' = e_nom e.
  Lemma keeps_lines es es' : Forall2 keeps es es' -> Forall2 same_lines es es'.
  Proof. induction 1 as [|x y t u H _ IH]; constructor; auto. apply H. Qed.
  Lemma made_lines c0 es a : knd v = TplRatio -> fitter_keeps v -> made v c0 es a ->
    exists g, nth_error (cat v) (t_r a) = Some g /\ Forall2 same_lines es (t_es a) /\
      forall j e', nth_error (t_es a) j = Some e' -> nominal_of (g_nom g) j e' (e_nom e').
  Proof.
    intros K FK M. unfold made in M. rewrite K in M. destruct M as (_ & _ & es1 & E1 & E2 & _).
    apply setTplratioModel_ok in E1. destruct E1 as (g & R0 & Eg & L1 & N1). rewrite Nat2Z.id in Eg.
    apply FK in E2. exists g. split; auto. split.
    - apply (F2_trans _ _ es1); auto. { intros x y z. apply lines_trans. } apply keeps_lines; auto.
    - intros j e' Ne. clear L1 Eg.
      assert (G : exists e, nth_error es1 j = Some e /\ keeps e e').
      { revert j Ne. clear N1. induction E2 as [|x y t u H _ IH]; intros [|j] Ne; try discriminate Ne.
        - inversion Ne; subst. exists x. split; auto.
        - apply (IH j Ne). }
      destruct G as (e & Ee & Kl & Kn). destruct (N1 j e Ee) as (l & Hl & Ln & Nn).
      rewrite Kn. exists l. split; auto. rewrite (lines_size _ _ Kl). auto.
  Qed.
  Lemma history_lines c0 h : knd v = TplRatio -> fitter_keeps v -> forall es, history v c0 es h ->
    Forall2 same_lines es (last_es es h) /\ forall a, In a h -> Forall2 same_lines es (t_es a) /\
      exists g, nth_error (cat v) (t_r a) = Some g /\ forall j e', nth_error (t_es a) j = Some e' -> nominal_of (g_nom g) j e' (e_nom e').
  Proof.
    intros K FK. induction h as [|a t IH]; intros es H; cbn [history] in H.
    - split; [apply F2_refl; apply lines_refl|]. intros a [].
    - destruct H as [M H]. destruct (made_lines c0 es a K FK M) as (g & Eg & L & N).
      destruct (IH (t_es a) H) as [L2 A2]. split.
      + unfold last_es in *. cbn [fold_left]. apply (F2_trans _ _ (t_es a)); auto. intros x y z. apply lines_trans.
      + intros b Hb. cbn [In] in Hb. destruct Hb as [Hb|Hb].
        * subst b. split; auto. exists g. auto.
        * destruct (A2 b Hb) as [L3 G3]. split; auto. apply (F2_trans _ _ (t_es a)); auto. intros x y z. apply lines_trans.
  Qed.
End R.

(** saving then restoring *)
Lemma nmul_inv s n q : s == q * n -> ~ n == 0 -> match nmul (Some s) (/ n) with Some x => x == q | None => False end.
Proof. intros H N. cbn. rewrite H. field. exact N. Qed.

Lemma save_line_scaled outs noms amps stds A S_ : 0 < A ->
  length noms = length outs -> length amps = length outs -> length stds = length outs ->
  (forall i, (i < length outs)%nat -> exists o n, nth_error outs i = Some o /\ nth_error noms i = Some n /\
     if o : bool then nth_error amps i = Some None /\ nth_error stds i = Some None
     else exists x y, nth_error amps i = Some (Some x) /\ nth_error stds i = Some (Some y) /\ x == A * n /\ y == S_ * n) ->
  (exists i n, nth_error outs i = Some false /\ nth_error noms i = Some n /\ 0 < n) ->
  exists a s, save_line outs noms amps stds = Ok (Some (a, Some s)) /\ a == A /\ s == S_.
Proof.
  intro A0. revert noms amps stds. induction outs as [|o os IH]; intros noms amps stds L1 L2 L3 H P.
  - destruct P as (i & n & N & _). destruct i; discriminate N.
  - destruct noms as [|n ns]; [discriminate|]. destruct amps as [|a l]; [discriminate|]. destruct stds as [|s ss]; [discriminate|].
    cbn [length] in L1, L2, L3.
    assert (Next : (exists i n0, nth_error os i = Some false /\ nth_error ns i = Some n0 /\ 0 < n0) ->
                   exists a0 s0, save_line os ns l ss = Ok (Some (a0, Some s0)) /\ a0 == A /\ s0 == S_).
    { apply IH; try lia. intros i Li. apply (H (S i)). cbn. lia. }
    destruct (H 0%nat ltac:(cbn; lia)) as (o' & n' & Eo & En & Hc). cbn in Eo, En. inversion Eo; inversion En; subst o' n'.
    cbn [save_line]. destruct o.
    + destruct Hc as [Ha _]. cbn in Ha. inversion Ha; subst a. apply Next. destruct P as (i & n0 & Po & Pn & Pp).
      destruct i as [|i]; [discriminate Po|]. exists i, n0. auto.
    + destruct Hc as (x & y & Ha & Hs & Ex & Ey). cbn in Ha, Hs. inversion Ha; inversion Hs; subst a s.
      destruct (Qle_bool x 0) eqn:Q0; cbn [orb].
      * apply Qle_bool_iff in Q0. apply Next. destruct P as (i & n0 & Po & Pn & Pp). destruct i as [|i].
        { cbn in Pn. inversion Pn; subst n0. exfalso. assert (0 < A * n) by (apply Qmult_lt_0_compat; auto). lra. }
        exists i, n0. auto.
      * assert (X0 : 0 < x). { apply Qnot_le_lt. intro X. apply Qle_bool_iff in X. congruence. }
        assert (N0 : ~ n == 0). { intro Z0. rewrite Ex, Z0 in X0. lra. }
        destruct (Qeq_bool n 0) eqn:Qn; [apply Qeq_bool_iff in Qn; tauto|].
        exists (x / n), (y * / n). cbn [nmul]. split; auto. split; [rewrite Ex|rewrite Ey]; field; auto.
Qed.
Lemma save_line_null outs noms amps stds :
  (forall i x, nth_error outs i = Some false -> nth_error amps i = Some (Some x) -> x <= 0) -> save_line outs noms amps stds = Ok None.
Proof.
  revert noms amps stds. induction outs as [|o os IH]; intros noms amps stds H; [reflexivity|].
  destruct noms as [|n ns]; [reflexivity|]. destruct amps as [|a l]; [reflexivity|]. destruct stds as [|s ss]; [reflexivity|].
  assert (Next : save_line os ns l ss = Ok None) by (apply IH; intros i x; apply (H (S i) x)).
  cbn [save_line]. destruct a as [x|]; auto. destruct o; [rewrite orb_true_r; auto|].
  assert (X : x <= 0) by (apply (H 0%nat x); reflexivity). apply Qle_bool_iff in X. rewrite X. cbn [orb]. auto.
Qed.

Lemma repeat_nth {A} (x : A) n i : (i < n)%nat -> nth_error (repeat x n) i = Some x.
Proof. revert i. induction n as [|n IH]; intros [|i] L; cbn; try lia; auto. apply IH. lia. Qed.

(** setAmplitudes with the amplitude A and the error s *)
Lemma setAmplitudes_scaled e A s e' : setAmplitudes e (Some A) (Some s) = Ok e' -> e_allout e = false -> under_limit e A ->
  length (e_nom e) = e_size e -> scaled e' A s /\ e' = with_amps e (e_amp e') (e_std e').
Proof.
  unfold setAmplitudes. intros E Out U Ln. rewrite Out in E. apply rbind_ok in E. destruct E as (l & El & E). inversion E; subst e'; clear E.
  apply mapr_nth in El. destruct El as [L N]. rewrite seq_length in L.
  split; [|reflexivity]. split; [|split]; cbn [e_amp e_std with_amps].
  - rewrite map_length. exact L.
  - rewrite map_length. exact L.
  - intros i Li. change (e_size (with_amps e (map fst l) (map snd l))) with (e_size e) in Li.
    destruct (N i i (nth_seq0 _ _ Li)) as ([f d] & Ef & Nf). unfold set_line in Ef. apply rbind_ok in Ef. destruct Ef as (o & Eo & Ef).
    apply vget_Ok in Eo. assert (Li' : (i < length (e_nom e))%nat) by lia. apply nth_error_Some in Li'.
    destruct (nth_error (e_nom e) i) as [n|] eqn:En; [|congruence].
    exists o, n. cbn [e_out e_nom e_amp e_std with_amps]. split; auto. split; auto.
    rewrite !nth_error_map, Nf. cbn [option_map fst snd].
    destruct o; [inversion Ef; subst; auto|].
    apply rbind_ok in Ef. destruct Ef as (n1 & En1 & Ef). apply vget_Ok in En1. assert (n1 = n) by congruence. subst n1.
    apply rbind_ok in Ef. destruct Ef as (fa & Efa & Ef). inversion Ef; subst; clear Ef.
    unfold setFittedAmplitude in Efa. apply rbind_ok in Efa. destruct Efa as (neg & Eneg & Efa). apply vget_Ok in Eneg.
    inversion Efa; subst fa; clear Efa. eexists _, _. split; [reflexivity|]. split; [reflexivity|]. split; [|reflexivity].
    destruct neg; cbn [andb]; [|reflexivity]. specialize (U i n Eneg En).
    destruct (Qltb_spec (e_limit e) (A * n)) as [G|G]; [lra|]. rewrite andb_false_r. reflexivity.
Qed.
Lemma scaled_ext e A S_ A' S' : A == A' -> S_ == S' -> scaled e A S_ -> scaled e A' S'.
Proof.
  intros EA ES (L1 & L2 & H). split; auto. split; auto. intros i Li. destruct (H i Li) as (o & n & Eo & En & Hc).
  exists o, n. split; auto. split; auto. destruct o; auto. destruct Hc as (x & y & Hx & Hy & Ex & Ey). exists x, y.
  repeat split; auto; [rewrite <- EA|rewrite <- ES]; auto.
Qed.
