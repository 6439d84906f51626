From Coq Require Import String.
From Verif Require Import Base RBase ClasModel ClasSpec.
Open Scope R_scope.

Section P.
  Context (result : string -> option ext).

  Lemma best_spec : forall cats m lab, usual result cats -> minus_max <= m ->
    exists M l, best result cats (Fin m) lab = (Fin M, l) /\ m <= M /\
      (forall c x, In c cats -> has result c x -> x <= M) /\
      ((M = m /\ l = lab) \/
       (m < M /\ exists before after, cats = (before ++ l :: after)%list /\ has result l M /\ forall c x, In c before -> has result c x -> x < M)).
  Proof.
    induction cats as [|c r IH]; intros m lab U L.
    - exists m, lab. cbn. repeat split; auto; try lra; try contradiction.
    - assert (U' : usual result r) by (intros c' e I0 R; apply (U c' e); [right; exact I0|exact R]).
      cbn [best]. destruct (result c) as [e|] eqn:Rc.
      + destruct (U c e (or_introl eq_refl) Rc) as [->|(x & -> & Lx)].
        * cbn [gtb]. destruct (IH m lab U' L) as (M & l & E & A1 & A2 & A3). exists M, l. split; [exact E|]. split; [exact A1|]. split.
          -- intros c' x' [<-|I0] H; [unfold has in H; congruence|eauto].
          -- destruct A3 as [A3|(B0 & before & after & -> & B1 & B2)]; [left; exact A3|]. right. split; [exact B0|]. exists (c :: before), after.
             split; [reflexivity|]. split; [exact B1|]. intros c' x' [<-|I0] H; [unfold has in H; congruence|eauto].
        * cbn [gtb]. destruct (Rltb_spec m x) as [Lm|Lm].
          -- destruct (IH x c U') as (M & l & E & A1 & A2 & A3); [lra|]. exists M, l. split; [exact E|]. split; [lra|]. split.
             ++ intros c' x' [<-|I0] H; [unfold has in H; rewrite Rc in H; injection H as <-; lra|eauto].
             ++ right. split; [lra|]. destruct A3 as [(-> & ->)|(B0 & before & after & -> & B1 & B2)].
                ** exists [], r. split; [reflexivity|]. split; [exact Rc|]. intros ? ? [].
                ** exists (c :: before), after. split; [reflexivity|]. split; [exact B1|].
                   intros c' x' [<-|I0] H; [unfold has in H; rewrite Rc in H; injection H as <-; lra|eauto].
          -- destruct (IH m lab U' L) as (M & l & E & A1 & A2 & A3). exists M, l. split; [exact E|]. split; [exact A1|]. split.
             ++ intros c' x' [<-|I0] H; [unfold has in H; rewrite Rc in H; injection H as <-; lra|eauto].
             ++ destruct A3 as [A3|(B0 & before & after & -> & B1 & B2)]; [left; exact A3|]. right. split; [exact B0|]. exists (c :: before), after.
                split; [reflexivity|]. split; [exact B1|].
                intros c' x' [<-|I0] H; [unfold has in H; rewrite Rc in H; injection H as <-; lra|eauto].
      + destruct (IH m lab U' L) as (M & l & E & A1 & A2 & A3). exists M, l. split; [exact E|]. split; [exact A1|]. split.
        * intros c' x' [<-|I0] H; [unfold has in H; congruence|eauto].
        * destruct A3 as [A3|(B0 & before & after & -> & B1 & B2)]; [left; exact A3|]. right. split; [exact B0|]. exists (c :: before), after.
          split; [reflexivity|]. split; [exact B1|]. intros c' x' [<-|I0] H; [unfold has in H; congruence|eauto].
  Qed.

  Lemma exp_diff_w c e M : result c = Some e -> (e = MInf \/ exists x, e = Fin x /\ minus_max < x) ->
    exp_diff e (Fin M) = Fin (weight result c / exp M).
  Proof.
    intros Rc [->|(x & -> & _)]; unfold weight; rewrite Rc; cbn [exp_diff].
    - f_equal. unfold Rdiv. ring.
    - f_equal. unfold Rminus. rewrite exp_plus, exp_Ropp. reflexivity.
  Qed.
  Lemma sum_spec M : forall cats s, usual result cats ->
    sumProba result (Fin M) cats (Fin s) = Fin (s + total (weight result) cats / exp M).
  Proof.
    pose proof (exp_pos M) as P.
    induction cats as [|c r IH]; intros s U; cbn [sumProba total].
    - f_equal. field. lra.
    - assert (U' : usual result r) by (intros c' e I0 R; apply (U c' e); [right; exact I0|exact R]).
      destruct (result c) as [e|] eqn:Rc.
      + rewrite (exp_diff_w c e M Rc (U c e (or_introl eq_refl) Rc)). cbn [add]. rewrite IH by exact U'. f_equal. field. lra.
      + rewrite IH by exact U'. unfold weight at 2. rewrite Rc. f_equal. field. lra.
  Qed.
  Lemma weight_nn c : 0 <= weight result c.
  Proof. unfold weight. destruct (result c) as [[x| | |]|]; try lra. left. apply exp_pos. Qed.
  Lemma total_nn cats : 0 <= total (weight result) cats.
  Proof. induction cats as [|c r IH]; cbn [total]; [lra|]. pose proof (weight_nn c). lra. Qed.
  Lemma weight_le_total c cats : In c cats -> weight result c <= total (weight result) cats.
  Proof.
    induction cats as [|d r IH]; intros I0; [contradiction|]. cbn [total]. destruct I0 as [->|I0].
    - pose proof (total_nn r). lra.
    - pose proof (weight_nn d). specialize (IH I0). lra.
  Qed.

  Lemma compute_ok lab cats c0 x0 : usual result cats -> In c0 cats -> has result c0 x0 ->
    exists cl label M before after, compute result lab cats = (Ok cl, label) /\ cl_label cl = label /\
      cats = (before ++ label :: after)%list /\ has result label M /\
      (forall c x, In c before -> has result c x -> x < M) /\ (forall c x, In c cats -> has result c x -> x <= M) /\
      0 < total (weight result) cats /\
      cl_proba cl = map (fun c => (c, Fin (weight result c / total (weight result) cats))) cats /\
      cl_evidence cl = map (fun c => (c, match result c with Some e => e | None => MInf end)) cats.
  Proof.
    intros U I0 H0. destruct (best_spec cats minus_max lab U (Rle_refl _)) as (M & l & E & A1 & A2 & A3).
    assert (Lm : minus_max < M).
    { specialize (A2 c0 x0 I0 H0). destruct (U c0 (Fin x0) I0 H0) as [X|(x & X & Lx)]; [discriminate|]. injection X as <-. lra. }
    destruct A3 as [(-> & _)|(_ & before & after & Ec & B1 & B2)]; [lra|].
    unfold compute. rewrite E. rewrite (sum_spec M cats 0 U), Rplus_0_l. cbn [le0].
    pose proof (exp_pos M) as P.
    assert (T : 0 < total (weight result) cats).
    { pose proof (weight_le_total c0 cats I0) as W. unfold weight at 1 in W. unfold has in H0. rewrite H0 in W. pose proof (exp_pos x0). lra. }
    assert (D : 0 < total (weight result) cats / exp M) by (apply Rdiv_lt_0_compat; assumption).
    destruct (Rltb_spec 0 (total (weight result) cats / exp M)) as [_|K]; [|lra]. cbn [negb].
    eexists _, l, M, before, after. split; [reflexivity|]. cbn [cl_label cl_proba cl_evidence].
    split; [reflexivity|]. split; [exact Ec|]. split; [exact B1|]. split; [exact B2|]. split; [exact A2|]. split; [exact T|]. split; [|reflexivity].
    apply map_ext_in. intros c Ic. f_equal. destruct (result c) as [e|] eqn:Rc.
    - rewrite (exp_diff_w c e M Rc (U c e Ic Rc)). cbn [div]. f_equal. field. lra.
    - unfold weight at 1. rewrite Rc. f_equal. unfold Rdiv. ring.
  Qed.
  Lemma total_scale k cats : total (fun c => weight result c / k) cats = total (weight result) cats / k.
  Proof. induction cats as [|c r IH]; cbn [total]; [unfold Rdiv; ring|]. rewrite IH. unfold Rdiv. ring. Qed.

  Lemma compute_none lab cats : usual result cats -> (forall c x, In c cats -> ~ has result c x) ->
    compute result lab cats = (Throw NO_CLASSIFICATION, lab).
  Proof.
    intros U N. destruct (best_spec cats minus_max lab U (Rle_refl _)) as (M & l & E & A1 & A2 & A3).
    destruct A3 as [(-> & ->)|(_ & before & after & Ec & B1 & B2)].
    2:{ exfalso. apply (N l M); [|exact B1]. rewrite Ec. apply in_or_app. right. left. reflexivity. }
    unfold compute. rewrite E, (sum_spec _ cats 0 U).
    assert (T : total (weight result) cats = 0).
    { clear - U N. induction cats as [|c r IH]; [reflexivity|]. cbn [total]. rewrite IH.
      - unfold weight. destruct (result c) as [[x| | |]|] eqn:Rc; try ring. exfalso. apply (N c x); [left; reflexivity|exact Rc].
      - intros c' e I0 R. apply (U c' e); [right; exact I0|exact R].
      - intros c' x I0. apply N. right. exact I0. }
    rewrite T. cbn [le0]. destruct (Rltb_spec 0 (0 + 0 / exp minus_max)) as [K|_]; [|reflexivity].
    unfold Rdiv in K. rewrite Rmult_0_l in K. lra.
  Qed.
End P.

Lemma total_ext f g cats : (forall c, In c cats -> f c = g c) -> total f cats = total g cats.
Proof. induction cats as [|c r IH]; intros H; cbn [total]; [reflexivity|]. rewrite (H c (or_introl eq_refl)), IH; [reflexivity|]. intros; apply H; right; assumption. Qed.
Lemma total_perm f cats cats' : Permutation cats cats' -> total f cats = total f cats'.
Proof. induction 1; cbn [total]; lra. Qed.
Lemma total_mul f k cats : total (fun c => k * f c) cats = k * total f cats.
Proof. induction cats as [|c r IH]; cbn [total]; [ring|]. rewrite IH. ring. Qed.

Lemma NaN_sum result c0 : result c0 = Some NaN -> forall cats m, In c0 cats -> sumProba result m cats (Fin 0) = NaN.
Proof.
  intros R0. assert (A : forall m cats, sumProba result m cats NaN = NaN).
  { intros m. induction cats as [|c r IH]; cbn [sumProba]; [reflexivity|]. destruct (result c); [|exact IH]. cbn [add]. exact IH. }
  assert (B : forall cats m s, In c0 cats -> sumProba result m cats s = NaN).
  { induction cats as [|c r IH]; intros m s I0; [contradiction|]. cbn [sumProba]. destruct I0 as [->|I0].
    - rewrite R0. replace (add s (exp_diff NaN m)) with NaN by (destruct s; reflexivity). apply A.
    - destruct (result c); apply IH, I0. }
  intros. apply B. assumption.
Qed.
Lemma compute_NaN result c0 lab cats : result c0 = Some NaN -> In c0 cats ->
  exists cl label, compute result lab cats = (Ok cl, label) /\
    forall c e, In c cats -> result c = Some e -> In (c, NaN) (cl_proba cl).
Proof.
  intros R0 I0. unfold compute. destruct (best result cats (Fin minus_max) lab) as [m l].
  rewrite (NaN_sum result c0 R0 cats m I0). cbn [le0]. do 2 eexists. split; [reflexivity|]. cbn [cl_proba].
  intros c e Ic Rc. apply in_map_iff. exists c. split; [|exact Ic]. rewrite Rc. f_equal. destruct (exp_diff e m); reflexivity.
Qed.
