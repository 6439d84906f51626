From Coq Require Import String.
From Verif Require Import Base RBase ClasModel ClasSpec ClasProofs.
Open Scope R_scope.

Lemma proba_spec result lab cats : usual result cats -> (exists c x, In c cats /\ has result c x) ->
  exists cl label, compute result lab cats = (Ok cl, label) /\ cl_label cl = label /\
    exists p : string -> R,
      cl_proba cl = map (fun c => (c, Fin (p c))) cats /\
      (forall c, In c cats -> 0 <= p c <= 1) /\ total p cats = 1 /\
      (forall c, In c cats -> (forall x, ~ has result c x) -> p c = 0) /\
      (forall c d x y, In c cats -> In d cats -> has result c x -> has result d y -> p c / p d = exp (x - y)) /\
      (exists before after, cats = (before ++ label :: after)%list /\ (exists x, has result label x) /\
         (forall c, In c before -> p c < p label) /\ (forall c, In c cats -> p c <= p label)).
Proof.
  intros U (c0 & x0 & I0 & H0). destruct (compute_ok result lab cats c0 x0 U I0 H0) as (cl & label & M & before & after & E & EL & Ec & HM & B1 & B2 & T & Ep & Ee).
  exists cl, label. split; [exact E|]. split; [exact EL|].
  exists (fun c => weight result c / total (weight result) cats). split; [exact Ep|].
  assert (IT : 0 < / total (weight result) cats) by (apply Rinv_0_lt_compat, T).
  split; [|split; [|split; [|split]]].
  - intros c Ic. pose proof (weight_nn result c) as W. pose proof (weight_le_total result c cats Ic) as W2. split.
    + unfold Rdiv. apply Rmult_le_pos; lra.
    + apply (Rmult_le_reg_r (total (weight result) cats)); [exact T|]. unfold Rdiv. rewrite Rmult_assoc, Rinv_l by lra. lra.
  - rewrite total_scale. field. lra.
  - intros c Ic N. unfold weight. destruct (result c) as [[x| | |]|] eqn:Rc; try (unfold Rdiv; ring). exfalso. apply (N x). exact Rc.
  - intros c d x y _ _ Hc Hd. unfold weight at 1 3. unfold has in *. rewrite Hc, Hd. unfold Rminus. rewrite exp_plus, exp_Ropp.
    pose proof (exp_pos y). field. split; lra.
  - exists before, after. split; [exact Ec|]. split; [exists M; exact HM|].
    assert (Wl : weight result label = exp M) by (unfold weight; unfold has in HM; rewrite HM; reflexivity).
    split.
    + intros c Ic. rewrite Wl. unfold Rdiv. apply Rmult_lt_compat_r; [exact IT|]. unfold weight.
      destruct (result c) as [[x| | |]|] eqn:Rc; try apply exp_pos. apply exp_increasing, (B1 c x Ic Rc).
    + intros c Ic. rewrite Wl. unfold Rdiv. apply Rmult_le_compat_r; [lra|]. unfold weight.
      destruct (result c) as [[x| | |]|] eqn:Rc; try (left; apply exp_pos).
      destruct (B2 c x Ic Rc) as [L| ->]; [left; apply exp_increasing, L|right; reflexivity].
Qed.
Lemma evidence_spec result lab cats cl label : compute result lab cats = (Ok cl, label) ->
  cl_evidence cl = map (fun c => (c, match result c with Some e => e | None => MInf end)) cats.
Proof.
  unfold compute. destruct (best result cats (Fin minus_max) lab) as [m l]. destruct (le0 _); [discriminate|].
  intros H. injection H as <- _. reflexivity.
Qed.

Lemma order_free result lab lab' cats cats' cl cl' l l' : usual result cats -> Permutation cats cats' ->
  compute result lab cats = (Ok cl, l) -> compute result lab' cats' = (Ok cl', l') -> Permutation (cl_proba cl) (cl_proba cl').
Proof.
  intros U P E E'.
  assert (U' : usual result cats') by (intros c e I0; apply (U c e); eapply Permutation_in; [apply Permutation_sym; exact P|exact I0]).
  assert (X : exists c x, In c cats /\ has result c x).
  { destruct (List.Exists_dec (fun c => exists x, has result c x) cats) as [X|X].
    - intros c. unfold has. destruct (result c) as [[x| | |]|]; [left; exists x; reflexivity|right|right|right|right]; intros (y & H); discriminate.
    - apply Exists_exists in X. destruct X as (c & Ic & x & H). eauto.
    - exfalso. assert (N : forall c x, In c cats -> ~ has result c x).
      { intros c x Ic H. apply X. apply Exists_exists. exists c. split; [exact Ic|exists x; exact H]. }
      rewrite (compute_none result lab cats U N) in E. discriminate. }
  destruct X as (c0 & x0 & I0 & H0).
  destruct (compute_ok result lab cats c0 x0 U I0 H0) as (cl1 & ? & ? & ? & ? & E1 & _ & _ & _ & _ & _ & _ & Ep & _).
  rewrite E in E1. injection E1 as <- <-.
  destruct (compute_ok result lab' cats' c0 x0 U' (Permutation_in _ P I0) H0) as (cl2 & ? & ? & ? & ? & E2 & _ & _ & _ & _ & _ & _ & Ep' & _).
  rewrite E' in E2. injection E2 as <- <-.
  rewrite Ep, Ep', (total_perm _ _ _ P). apply Permutation_map, P.
Qed.

Lemma shift_free result k lab lab' cats cl cl' l l' : usual result cats -> usual (fun c => shifted k (result c)) cats ->
  compute result lab cats = (Ok cl, l) -> compute (fun c => shifted k (result c)) lab' cats = (Ok cl', l') ->
  cl_proba cl = cl_proba cl'.
Proof.
  intros U U' E E'.
  assert (X : exists c x, In c cats /\ has result c x).
  { destruct (List.Exists_dec (fun c => exists x, has result c x) cats) as [X|X].
    - intros c. unfold has. destruct (result c) as [[x| | |]|]; [left; exists x; reflexivity|right|right|right|right]; intros (y & H); discriminate.
    - apply Exists_exists in X. destruct X as (c & Ic & x & H). eauto.
    - exfalso. assert (N : forall c x, In c cats -> ~ has result c x).
      { intros c x Ic H. apply X. apply Exists_exists. exists c. split; [exact Ic|exists x; exact H]. }
      rewrite (compute_none result lab cats U N) in E. discriminate. }
  destruct X as (c0 & x0 & I0 & H0).
  destruct (compute_ok result lab cats c0 x0 U I0 H0) as (cl1 & ? & ? & ? & ? & E1 & _ & _ & _ & _ & _ & T & Ep & _).
  rewrite E in E1. injection E1 as <- <-.
  assert (H0' : has (fun c => shifted k (result c)) c0 (x0 + k)) by (unfold has in *; rewrite H0; reflexivity).
  destruct (compute_ok _ lab' cats c0 (x0 + k) U' I0 H0') as (cl2 & ? & ? & ? & ? & E2 & _ & _ & _ & _ & _ & _ & Ep' & _).
  rewrite E' in E2. injection E2 as <- <-.
  rewrite Ep, Ep'. assert (W : forall c, weight (fun c => shifted k (result c)) c = exp k * weight result c).
  { intros c. unfold weight. destruct (result c) as [[x| | |]|]; cbn [shifted]; try ring. rewrite exp_plus. ring. }
  rewrite (total_ext (weight (fun c => shifted k (result c))) (fun c => exp k * weight result c)) by (intros; apply W).
  rewrite total_mul. apply map_ext. intros c. rewrite W. do 2 f_equal. pose proof (exp_pos k). field. split; lra.
Qed.
