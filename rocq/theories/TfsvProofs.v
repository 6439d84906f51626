From Coq Require Import String.
From Verif Require Import Base PhotModel PhotSpec PhotProofs TfsvModel TfsvSpec.
Open Scope Q_scope.

Lemma retype_nth j t : forall l n ty, nth_error l j = Some (n, ty) -> nth_error (retype j t l) j = Some (n, t).
Proof. induction j as [|j IH]; intros [|p l] n ty E; cbn in *; try discriminate; [inversion E; reflexivity|eauto]. Qed.
Lemma retype_back j t : forall l n ty, nth_error l j = Some (n, ty) -> retype j ty (retype j t l) = l.
Proof. induction j as [|j IH]; intros [|p l] n ty E; cbn in *; try discriminate; [inversion E; reflexivity|]. f_equal. eauto. Qed.
Lemma retype_twice j t t' : forall l, retype j t (retype j t' l) = retype j t l.
Proof. induction j as [|j IH]; intros [|p l]; cbn; try reflexivity. f_equal. auto. Qed.
Lemma results_set c c' m s : results c (set_results c' m s) = match c, c' with Raw, Raw | NoContinuum, NoContinuum | ContinuumOnly, ContinuumOnly => m | _, _ => results c s end.
Proof. destruct c, c'; reflexivity. Qed.
Lemma spcs_set c m s : s_spcs (set_results c m s) = s_spcs s. Proof. destruct c; reflexivity. Qed.
Lemma tpls_set c m s : s_tpls (set_results c m s) = s_tpls s. Proof. destruct c; reflexivity. Qed.
Lemma log_set c m s : s_log (set_results c m s) = s_log s. Proof. destruct c; reflexivity. Qed.
Lemma results_types sp j t c s : results c (set_types sp j t s) = results c s. Proof. destruct c; reflexivity. Qed.
Lemma etype_dec (a b : etype) : {a = b} + {a <> b}. Proof. decide equality. Defined.

Section Method.
  Variable fit : list etype -> bool -> string -> etype -> bool -> bool -> res fitresult.
  Notation loop := (component_loop fit).
  Notation solve := (Solve fit).
  Notation tloop := (template_loop fit).

  Fixpoint dust_run (cs : list etype) (c : etype) (dust : bool) : bool :=
    match cs with [] => dust | x :: cs => let d := match x with NoContinuum => false | _ => dust end in if etype_dec x c then d else dust_run cs c d end.
  Lemma dust_run_dusty t c dust : In c (components t) -> dust_run (components t) c dust = dusty t c dust.
  Proof. destruct t as [x|]; cbn [components In]; [intros [<-|[]]; destruct x; reflexivity|]. intros [<-|[<-|[<-|[]]]]; reflexivity. Qed.
  Lemma components_nodup t : NoDup (components t).
  Proof. destruct t; repeat constructor; cbn; intuition discriminate. Qed.

  Lemma mget_new {A} (m : smap A) n : (forall v, mget m n <> Ok v) -> ~ In n (keys m).
  Proof. intros H X. apply mget_in in X. destruct X as [v X]. exact (H v X). Qed.

  Lemma loop_ok ext : forall cs j n ty dust s s', NoDup cs -> nth_error (s_tpls s) j = Some (n, ty) -> loop j cs ext dust s = (s', Ok tt) ->
    List.length (s_spcs s') = List.length (s_spcs s) /\ s_log s' = s_log s /\ (exists t, s_tpls s' = retype j t (s_tpls s)) /\
    (forall c, ~ In c cs -> results c s' = results c s) /\
    (forall c, In c cs -> exists r, fit (repeat c (List.length (s_spcs s))) (s_log s) n c ext (dust_run cs c dust) = Ok r /\ ~ In n (keys (results c s)) /\ results c s' = mput true n r (results c s)).
  Proof.
    induction cs as [|x cs IH]; intros j n ty dust s s' ND Hj E; cbn [component_loop] in E.
    - inversion E; subst. split; [reflexivity|]. split; [reflexivity|]. split.
      + exists ty. clear -Hj. revert Hj. generalize (s_tpls s'). induction j as [|j IHj]; intros [|p l] H; cbn in *; try discriminate; [inversion H; reflexivity|]. f_equal. auto.
      + split; [reflexivity|intros c []].
    - inversion ND as [|? ? NI ND']; subst.
      rewrite (retype_nth j x _ n ty Hj : nth_error (s_tpls (set_types (repeat x (List.length (s_spcs s))) j x s)) j = _) in E.
      change (s_spcs (set_types (repeat x (List.length (s_spcs s))) j x s)) with (repeat x (List.length (s_spcs s))) in E.
      change (s_log (set_types (repeat x (List.length (s_spcs s))) j x s)) with (s_log s) in E.
      destruct (fit (repeat x (List.length (s_spcs s))) (s_log s) n x ext match x with NoContinuum => false | _ => dust end) as [r| |] eqn:F; [|discriminate E|discriminate E].
      rewrite results_types in E.
      assert (G : ~ In n (keys (results x s)) /\ loop j cs ext (match x with NoContinuum => false | _ => dust end) (set_results x (mput true n r (results x s)) (set_types (repeat x (List.length (s_spcs s))) j x s)) = (s', Ok tt)).
      { destruct (mget (results x s) n) as [v|e|] eqn:M; [discriminate E| |]; (split; [apply mget_new; intros w W; congruence|exact E]). }
      clear E. destruct G as [N E].
      apply (IH j n x) in E; [|exact ND'|rewrite tpls_set; exact (retype_nth j x _ n ty Hj)].
      rewrite spcs_set, log_set, tpls_set in E. cbn [set_types s_spcs s_log s_tpls] in E. rewrite repeat_length in E. destruct E as (E1 & E2 & (t & E3) & E4 & E5).
      split; [exact E1|]. split; [exact E2|]. split; [exists t; rewrite E3; apply retype_twice|]. split.
      + intros c NC. rewrite (E4 c) by (intro X; apply NC; right; exact X). rewrite results_set, results_types. destruct c, x; try reflexivity; exfalso; apply NC; left; reflexivity.
      + intros c IC. cbn [dust_run]. destruct (etype_dec x c) as [Ex|Ex].
        * subst c. exists r. split; [exact F|]. split; [exact N|]. rewrite (E4 x NI), results_set. destruct x; reflexivity.
        * destruct IC as [IC|IC]; [contradiction|]. destruct (E5 c IC) as (r' & F' & N' & R'). rewrite results_set, results_types in *. exists r'. destruct c, x; try congruence; auto.
  Qed.

  (** one template *)
  Lemma Solve_ok j t ext dust s s' : solve j t ext dust s = (s', Ok tt) -> exists n ty, nth_error (s_tpls s) j = Some (n, ty) /\
    s_spcs s' = s_spcs s /\ s_log s' = s_log s /\ s_tpls s' = s_tpls s /\ (forall c, ~ In c (components t) -> results c s' = results c s) /\
    (forall c, In c (components t) -> exists r, fit (repeat c (List.length (s_spcs s))) (s_log s) n c ext (dusty t c dust) = Ok r /\ ~ In n (keys (results c s)) /\ results c s' = mput true n r (results c s)).
  Proof.
    unfold Solve. destruct (nth_error (s_tpls s) j) as [[n ty]|] eqn:Hj; [|discriminate]. destruct (loop j (components t) ext dust s) as [s1 [u| |]] eqn:L; try discriminate.
    intro E. inversion E; subst s'. destruct u. apply (loop_ok ext _ _ _ _ _ _ _ (components_nodup t) Hj) in L. destruct L as (_ & L2 & (t' & L3) & L4 & L5).
    exists n, ty. split; [reflexivity|]. split; [reflexivity|]. split; [exact L2|]. split; [cbn [set_types s_tpls]; rewrite L3; exact (retype_back _ _ _ _ _ Hj)|]. split.
    - intros c C. rewrite results_types. auto.
    - intros c C. destruct (L5 c C) as (r & F & N & R). rewrite results_types. exists r. rewrite dust_run_dusty in F by exact C. auto.
  Qed.

  Lemma tloop_ok t ext dust : forall js s s', (forall c, In c (components t) -> ordered (results c s)) -> tloop js t ext dust s = (s', Ok tt) ->
    s_spcs s' = s_spcs s /\ s_log s' = s_log s /\ s_tpls s' = s_tpls s /\ (forall c, ~ In c (components t) -> results c s' = results c s) /\
    (exists ns, Forall2 (fun j n => exists ty, nth_error (s_tpls s) j = Some (n, ty)) js ns /\ NoDup ns /\
       forall c, In c (components t) ->
         (forall n, In n ns -> ~ In n (keys (results c s))) /\ ordered (results c s') /\ (forall n, In n (keys (results c s')) <-> In n (keys (results c s)) \/ In n ns) /\
         (forall n r, bound (results c s') n r -> bound (results c s) n r \/ In n ns /\ fit (repeat c (List.length (s_spcs s))) (s_log s) n c ext (dusty t c dust) = Ok r)).
  Proof.
    induction js as [|j js IH]; intros s s' OO E; cbn [template_loop] in E.
    - inversion E; subst. do 3 (split; [reflexivity|]). split; [reflexivity|]. exists []. split; [constructor|]. split; [constructor|]. intros c C. split; [intros n []|]. split; [exact (OO c C)|]. split; [intro n; cbn [In]; tauto|]. intros n r B. left. exact B.
    - destruct (solve j t ext dust s) as [s1 [u| |]] eqn:L; try discriminate. destruct u. apply Solve_ok in L. destruct L as (n & ty & Hj & A1 & A2 & A3 & A4 & A5).
      assert (KEY : forall c, In c (components t) -> exists r, fit (repeat c (List.length (s_spcs s))) (s_log s) n c ext (dusty t c dust) = Ok r /\ ~ In n (keys (results c s)) /\ ordered (results c s1) /\
         (forall k, In k (keys (results c s1)) <-> In k (keys (results c s)) \/ k = n) /\ (forall k v, bound (results c s1) k v -> bound (results c s) k v \/ k = n /\ v = r)).
      { intros c C. pose proof (OO c C) as O. destruct (A5 c C) as (r & F & N & R). exists r. split; [exact F|]. split; [exact N|]. rewrite R. split; [apply mput_ordered; exact O|]. split.
        - intro k. split.
          + intro K. destruct (mget_in _ _ K) as [v V]. rewrite (mget_mput _ _ _ _ _ O) in V. destruct (String.eqb_spec k n) as [Ek|Nk]; [right; exact Ek|]. left. exact (mget_keys _ _ _ V).
          + intros [K|K]; [destruct (mget_in _ _ K) as [v V]|].
            * apply (mget_keys _ _ v). rewrite (mget_mput _ _ _ _ _ O). destruct (String.eqb_spec k n) as [Ek|Nk]; [subst k; contradiction|exact V].
            * subst k. apply (mget_keys _ _ r). rewrite (mget_mput _ _ _ _ _ O), String.eqb_refl. reflexivity.
        - intros k v B. apply mput_in in B. destruct B as [B|B]; [right; exact B|left; exact B]. }
      apply IH in E; [|intros c C; destruct (KEY c C) as (r & _ & _ & O1 & _); exact O1]. rewrite A1, A2, A3 in E. destruct E as (E1 & E2 & E3 & E4 & ns & F2 & ND & E5).
      split; [exact E1|]. split; [exact E2|]. split; [exact E3|]. split; [intros c C; rewrite (E4 c C); auto|].
      exists (n :: ns). split; [constructor; [exists ty; exact Hj|exact F2]|]. split.
      { constructor; [|exact ND]. assert (exists c, In c (components t)) as [c C] by (destruct t as [x|]; [exists x|exists Raw]; left; reflexivity).
        intro X. destruct (KEY c C) as (r & _ & _ & _ & K1 & _). destruct (E5 c C) as (D1 & _). apply (D1 n X). apply K1. right. reflexivity. }
      intros c C. destruct (KEY c C) as (r & F & N & O1 & K1 & B1). destruct (E5 c C) as (D1 & D2 & D3 & D4).
      split; [intros k [<-|K]; [exact N|]; intro Y; apply (D1 k K); apply K1; left; exact Y|]. split; [exact D2|]. split.
      + intro k. rewrite D3, K1. cbn [In]. split; [intros [[H|H]|H]|intros [H|[H|H]]]; auto.
      + intros k v B. destruct (D4 k v B) as [H|[H1 H2]]; [destruct (B1 k v H) as [H'|[-> ->]]|]; [left; exact H'|right; split; [left; reflexivity|exact F]|right; split; [right; exact H1|exact H2]].
  Qed.
End Method.
