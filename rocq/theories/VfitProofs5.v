From Verif Require Import Base RangeModel RangeProofs RangeGridProofs F64 RatSpec RatProofs VfitModel VfitSpec VfitProofs VfitProofs2 VfitProofs3 VfitProofs4.
Open Scope Q_scope.

Lemma max_never l vs : 0 < l_step l -> l_sup l - l_inf l < 2147483647 * l_step l -> l_inf l <= l_sup l -> velfitlist l = Ok vs ->
  forall v, In v vs -> l_inf l <= v <= l_sup l - l_step l.
Proof.
  intros S B O V v I. destruct (velfitlist_spec l S B O) as (vs' & E & H & _). rewrite V in E. injection E as <-.
  destruct (proj1 (H v)) as (i & Ev & L); [exists v; split; [exact I|reflexivity]|]. split; [|lra]. rewrite Ev.
  assert (0 <= inject_Z (Z.of_nat i)). { change 0 with (inject_Z 0). rewrite <- Zle_Qle. lia. }
  assert (0 <= inject_Z (Z.of_nat i) * l_step l). { apply Qmult_le_0_compat; auto. lra. } lra.
Qed.
Lemma tests_in zs vs z v : In (z, v) (tests zs vs) <-> In z zs /\ In v vs.
Proof.
  unfold tests. rewrite in_flat_map. split.
  - intros (y & I & J). apply in_map_iff in J. destruct J as (x & E & J). injection E as <- <-. auto.
  - intros [I J]. exists z. split; auto. apply in_map_iff. exists v. auto.
Qed.
Lemma scanned_grid key zw vs v0 x0 c0 v1 x1 c1 : scanned key (tests zw vs) v0 x0 c0 v1 x1 c1 -> x1 = x0 \/ exists v, x1 = Some v /\ In v vs.
Proof.
  intros [(z & v & (b & a & E & _) & _ & H & _)|(_ & H & _)]; [right|left; exact H]. exists v. split; auto.
  assert (I : In (z, v) (tests zw vs)) by (rewrite E; apply in_or_app; right; left; reflexivity). apply tests_in in I. tauto.
Qed.
Lemma least_le {A} (key : A -> f64) l x y : first_least key l x -> In y l -> flt (key y) (key x) = false.
Proof.
  intros (b & a & -> & F & B & C) I. apply in_app_or in I. destruct I as [I|[I|I]].
  - destruct (flt (key y) (key x)) eqn:E; auto. assert (N : flt (key y) PInf = true) by (apply (flt_trans _ _ _ E F)).
    pose proof (flt_trans _ _ _ (B y I N) E) as X. rewrite flt_irrefl in X. discriminate.
  - subst y. apply flt_irrefl.
  - apply C. exact I.
Qed.
Lemma scanned_improves e u zw vsA vsE va0 ve0 a0 e0 c0 va1 a1 c1 ve1 e1 c2 z v :
  scanned (fun p => e_merit e (abs_run u (Some ve0) p)) (tests zw vsA) va0 a0 c0 va1 a1 c1 ->
  scanned (fun p => e_merit e (em_run u va1 p)) (tests zw vsE) (Some ve0) e0 c1 ve1 e1 c2 -> In ve0 vsE ->
  In (z, v) (tests zw vsA) -> flt (e_merit e (abs_run u (Some ve0) (z, v))) PInf = true ->
  flt (e_merit e (abs_run u (Some ve0) (z, v))) c2 = false.
Proof.
  intros [(z0 & v0 & Fl & -> & -> & ->)|(N & _)] S2 I J F; [|rewrite (N _ J) in F; discriminate].
  set (m := e_merit e (abs_run u (Some ve0) (z, v))) in *.
  pose proof (least_le _ _ _ _ Fl J) as L1. cbn beta in L1. fold m in L1.
  assert (K : In (z0, ve0) (tests zw vsE)).
  { destruct Fl as (b & a & E & _). assert (X : In (z0, v0) (tests zw vsA)) by (rewrite E; apply in_or_app; right; left; reflexivity).
    apply tests_in in X. apply tests_in. tauto. }
  destruct S2 as [(z' & v' & Fl' & _ & _ & ->)|(N & _ & -> & _)]; [|exact L1].
  pose proof (least_le _ _ _ _ Fl' K) as L2. cbn beta in L2.
  change (em_run u (Some v0) (z0, ve0)) with (abs_run u (Some ve0) (z0, v0)) in L2.
  set (m1 := e_merit e (abs_run u (Some ve0) (z0, v0))) in *. set (m2 := e_merit e (em_run u (Some v0) (z', v'))) in *.
  destruct (flt m m2) eqn:E; auto. exfalso.
  assert (F1 : flt m1 PInf = true) by (destruct Fl as (? & ? & _ & X & _); exact X).
  rewrite (flt_le_trans m m2 m1 E L2 F1) in L1. discriminate.
Qed.

Lemma fit_on_grid e c zs ext vsA vsE cs s : keeps e -> k_fit c = true -> velfitlist (k_abs c) = Ok vsA -> velfitlist (k_em c) = Ok vsE ->
  (forall j z, nth_error cs j = Some z -> exists k w ib ie, first_at zs z k /\ nth_error ext j = Some w /\ bounds zs w ib ie) ->
  sized zs (length cs) s ->
  exists s', EstimateSecondPassParameters e c zs ext 0 cs s = Ok s' /\ sized zs (length cs) s' /\
    (forall i x, nth_error (s_alv s') i = Some x -> nth_error (s_alv s) i = Some x \/ exists v, x = Some v /\ In v vsA) /\
    (forall i x, nth_error (s_elv s') i = Some x -> nth_error (s_elv s) i = Some x \/ exists v, x = Some v /\ In v vsE).
Proof.
  intros K F VA VE G (Sc & Ss & Sa & Se).
  destruct (estimate_all_fit e c zs ext vsA vsE cs K F VA VE 0 s) as (s' & va & ve & E & _ & _ & _ & _ & _ & P6 & P7 & P8 & P9 & P10 & P11); auto; try (cbn; lia).
  exists s'. split; [exact E|]. split; [unfold sized; repeat split; congruence|].
  assert (Z : forall i, (i < length cs)%nat -> exists a0 e0 a1 e1, nth_error (s_alv s) i = Some a0 /\ nth_error (s_elv s) i = Some e0 /\
    nth_error (s_alv s') i = Some a1 /\ nth_error (s_elv s') i = Some e1 /\ (a1 = a0 \/ exists v, a1 = Some v /\ In v vsA) /\ (e1 = e0 \/ exists v, e1 = Some v /\ In v vsE)).
  { intros i L. destruct (nth_error_lt cs i L) as (z & N). destruct (G i z N) as (k & w & ib & ie & Zk & W & B).
    destruct (P10 i z k w ib ie N Zk W B) as (cont & b & a0 & e0 & a1 & e1 & c0 & c1 & c2 & _ & _ & Q1 & Q2 & Q3 & Q4 & Q5 & Q6).
    exists a0, e0, a1, e1. cbn [plus] in *. repeat (split; [assumption|]). split; eapply scanned_grid; eauto. }
  split; intros i x N; (assert (L : (i < length cs)%nat) by (apply nth_error_len in N; lia)); destruct (Z i L) as (a0 & e0 & a1 & e1 & Q1 & Q2 & Q3 & Q4 & [Q5|Q5] & [Q6|Q6]); rewrite N in *;
    try (left; congruence); try (right; destruct Q5 as (v & -> & I); exists v; split; [congruence|exact I]); try (right; destruct Q6 as (v & -> & I); exists v; split; [congruence|exact I]).
Qed.

(** ** the witnesses *)
Definition lim01 : limits := mkL 0 2 1.
Definition cfg0 (f : bool) : config := mkCfg f lim01 lim01 false false false 0 ReNo.
Definition vq (o : option Q) : Q := match o with Some q => q | None => 0 end.
Definition env0 (m : Q -> Q -> Q -> f64) : env :=
  mkEnv (fun r => m (r_z r) (vq (r_va r)) (vq (r_ve r))) (fun r => (r_va r, r_ve r)).
Lemma env0_keeps m : keeps (env0 m).
Proof. intro r. reflexivity. Qed.
Definition run0 : run := mkRun (mkS Own false Untouched 0) 0 (Some 0) (Some 0).
Definition st0 (n k : nat) : state :=
  mkSt (Some 7) (Some 0) Own false Untouched (repeat (Fin 100) n) (repeat run0 n) (repeat (Some 50) k) (repeat (Some 60) k).
Definition is0 (q : Q) : bool := Qeq_bool q 0.

(** the pair of velocities found is not the best pair *)
Definition m_joint (_ va ve : Q) : f64 := Fin (if is0 ve then (if is0 va then 5 else 6) else (if is0 va then 4 else 1)).
Definition show (r : res state) : option (list (option Z) * list (option Z) * list (option Z) * (option Z * option Z)) :=
  let qz (o : option Q) := match o with Some q => Some (Qfloor q) | None => None end in
  match r with
  | Ok s => Some (map qz (s_alv s), map qz (s_elv s), map (fun f => match f with Fin q => Some (Qfloor q) | _ => None end) (s_chi s), (qz (s_va s), qz (s_ve s)))
  | _ => None
  end.
Lemma joint_wit : show (EstimateSecondPassParameters (env0 m_joint) (cfg0 true) [3] [[3]] 0 [3] (st0 1 1)) =
  Some ([Some 0%Z], [Some 1%Z], [Some 4%Z], (Some 0%Z, Some 1%Z)).
Proof. vm_compute. reflexivity. Qed.
(** the velocities found depend on the candidates before *)
Definition m_hist (z va ve : Q) : f64 :=
  Fin (if is0 z then 3 - ve else if is0 ve then (if is0 va then 1 else 2) else (if is0 va then 5 else 4)).
Lemma hist_wit : show (EstimateSecondPassParameters (env0 m_hist) (cfg0 true) [0; 10] [[10]] 0 [10] (st0 2 1)) =
    Some ([Some 0%Z], [Some 0%Z], [Some 100%Z; Some 1%Z], (Some 0%Z, Some 0%Z)) /\
  show (EstimateSecondPassParameters (env0 m_hist) (cfg0 true) [0; 10] [[0]; [10]] 0 [0; 10] (st0 2 2)) =
    Some ([Some 0%Z; Some 1%Z], [Some 1%Z; Some 0%Z], [Some 2%Z; Some 2%Z], (Some 1%Z, Some 0%Z)).
Proof. split; vm_compute; reflexivity. Qed.
(** the chi-square of the candidate is the one of another redshift, and the solution kept with it is of a third fit *)
Definition m_other (z va ve : Q) : f64 := Fin (if is0 z then 9 else 4 + va + ve).
Lemma other_wit : show (EstimateSecondPassParameters (env0 m_other) (cfg0 true) [0; 1] [[0; 1]] 0 [0] (st0 2 1)) =
    Some ([Some 0%Z], [Some 0%Z], [Some 4%Z; Some 100%Z], (Some 0%Z, Some 0%Z)) /\
  (forall va ve, m_other 0 va ve = Fin 9) /\
  match EstimateSecondPassParameters (env0 m_other) (cfg0 true) [0; 1] [[0; 1]] 0 [0] (st0 2 1) with
  | Ok s => match s_sol s with r :: _ => (Qfloor (r_z r), Qfloor (vq (r_va r)), Qfloor (vq (r_ve r))) = (1, 0, 1)%Z | _ => False end
  | _ => False end.
Proof. split; [vm_compute; reflexivity|]. split; [intros; reflexivity|]. vm_compute. reflexivity. Qed.
(** no chi-square is a number: the model is left at the last velocity tested *)
Lemma nan_wit : show (EstimateSecondPassParameters (env0 (fun _ _ _ => NaN)) (cfg0 true) [3] [[3]] 0 [3] (st0 1 1)) =
  Some ([Some 50%Z], [Some 60%Z], [Some 100%Z], (Some 1%Z, Some 1%Z)).
Proof. vm_compute. reflexivity. Qed.
(** two windows with a common redshift: the last one wins *)
Lemma recompute_wit : show (RecomputeAroundCandidates (env0 (fun z va ve => Fin (z * 100 + va * 10 + ve))) (cfg0 true) 2 [1; 2; 3; 4] [[1; 2]; [2; 3]] [1; 3]
    (with_elv (with_alv (st0 4 2) [Some 5; Some 6]) [Some 7; Some 8])) =
  Some ([Some 5%Z; Some 6%Z], [Some 7%Z; Some 8%Z], [Some 157%Z; Some 268%Z; Some 368%Z; Some 100%Z], (Some 6%Z, Some 8%Z)).
Proof. vm_compute. reflexivity. Qed.
Lemma nofit_wit : show (EstimateSecondPassParameters (env0 m_other) (cfg0 false) [0; 1] [] 0 [1; 0] (st0 2 2)) =
  Some ([Some 7%Z; Some 7%Z], [Some 0%Z; Some 0%Z], [Some 100%Z; Some 100%Z], (Some 7%Z, Some 0%Z)).
Proof. vm_compute. reflexivity. Qed.
