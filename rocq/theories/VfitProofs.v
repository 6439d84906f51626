From Verif Require Import Base RangeModel RangeProofs RangeGridProofs F64 RatSpec RatProofs VfitModel VfitSpec.
Open Scope Q_scope.

(** ** the velocities *)
Lemma velfitlist_spec l : 0 < l_step l -> l_sup l - l_inf l < 2147483647 * l_step l -> l_inf l <= l_sup l ->
  exists vs, velfitlist l = Ok vs /\
    (forall v, (exists v', In v' vs /\ v' == v) <-> exists i, v == l_inf l + inject_Z (Z.of_nat i) * l_step l /\ v + l_step l <= l_sup l) /\
    (forall i v, nth_error vs i = Some v -> v == l_inf l + inject_Z (Z.of_nat i) * l_step l).
Proof.
  intros S B O. unfold velfitlist. destruct (Qeq_bool_spec (l_step l) 0) as [E|E]; [exfalso; rewrite E in S; apply (Qlt_irrefl 0); exact S|].
  set (x := (l_sup l - l_inf l) / l_step l).
  assert (X0 : 0 <= x). { unfold x. apply Qle_shift_div_l; auto. lra. }
  assert (XB : x < 2147483647). { unfold x. apply Qlt_shift_div_r; auto. }
  assert (XM : x * l_step l == l_sup l - l_inf l). { unfold x. field. exact E. }
  assert (T : Qtrunc x = Qfloor x) by (apply Qtrunc_nonneg; auto).
  assert (F0 : (0 <= Qfloor x)%Z). { change 0%Z with (Qfloor 0). apply Qfloor_resp_le. exact X0. }
  assert (FB : (Qfloor x <= 2147483647)%Z). { change 2147483647%Z with (Qfloor 2147483647). apply Qfloor_resp_le. lra. }
  unfold to_int32. rewrite T. replace ((-2147483648 <=? Qfloor x)%Z && (Qfloor x <=? 2147483647)%Z)%bool with true.
  2:{ symmetry. apply andb_true_iff. split; apply Z.leb_le; lia. }
  cbn [rbind]. eexists. split; [reflexivity|].
  pose proof (Qfloor_le x) as FL. pose proof (Qlt_floor x) as FU.
  split.
  - intro v. split.
    + intros (v' & I & Ev). apply in_map_iff in I. destruct I as (i & <- & I). apply in_seq in I. exists i. split; [rewrite Ev; reflexivity|].
      rewrite <- Ev.
      assert (Hi : inject_Z (Z.of_nat i) + 1 <= inject_Z (Qfloor x)).
      { change 1 with (inject_Z 1). rewrite <- inject_Z_plus. rewrite <- Zle_Qle. lia. }
      assert ((inject_Z (Z.of_nat i) + 1) * l_step l <= x * l_step l). { apply Qmult_le_compat_r; lra. }
      lra.
    + intros (i & Ev & L). exists (l_inf l + inject_Z (Z.of_nat i) * l_step l). split; [|rewrite Ev; reflexivity].
      apply in_map_iff. exists i. split; [reflexivity|]. apply in_seq. split; [lia|].
      assert (Hi : (inject_Z (Z.of_nat i) + 1) * l_step l <= x * l_step l) by (rewrite XM; rewrite Ev in L; lra).
      assert (Hj : inject_Z (Z.of_nat i) + 1 <= x). { apply (Qmult_le_r _ _ (l_step l)); auto. }
      assert (Hk : (Z.of_nat i + 1 <= Qfloor x)%Z).
      { rewrite <- (Qfloor_Z (Z.of_nat i + 1)). apply Qfloor_resp_le. rewrite inject_Z_plus. exact Hj. }
      lia.
  - intros i v N. rewrite nth_error_map in N. destruct (nth_error (seq 0 (Z.to_nat (Qfloor x))) i) as [j|] eqn:J; [|discriminate].
    cbn in N. injection N as <-. assert (j = i).
    { pose proof (nth_error_len _ _ _ J) as Lj. rewrite seq_length in Lj. rewrite (nth_error_nth' _ 0%nat) in J by (rewrite seq_length; lia).
      rewrite seq_nth in J by lia. injection J as <-. lia. }
    subst j. reflexivity.
Qed.
Lemma velfitlist_zero l : l_step l == 0 -> velfitlist l = UB.
Proof. intro E. unfold velfitlist. destruct (Qeq_bool_spec (l_step l) 0) as [_|N]; tauto. Qed.
(** limits in the wrong order: nothing to test *)
Lemma velfitlist_none l : 0 < l_step l -> l_inf l - l_sup l < 2147483647 * l_step l -> l_sup l - l_inf l < l_step l -> velfitlist l = Ok [].
Proof.
  intros S B O. unfold velfitlist. destruct (Qeq_bool_spec (l_step l) 0) as [E|E]; [exfalso; rewrite E in S; apply (Qlt_irrefl 0); exact S|].
  set (x := (l_sup l - l_inf l) / l_step l).
  assert (X1 : x < 1). { unfold x. apply Qlt_shift_div_r; auto. lra. }
  assert (XB : - 2147483647 < x). { unfold x. apply Qlt_shift_div_l; auto. lra. }
  assert (T : (-2147483647 <= Qtrunc x <= 0)%Z).
  { unfold Qtrunc. destruct (Qltb_spec x 0) as [L|L].
    - split.
      + change (-2147483647)%Z with (Qceiling (-2147483647)). apply Qceiling_resp_le. lra.
      + change 0%Z with (Qceiling 0). apply Qceiling_resp_le. lra.
    - assert (Qfloor x = 0%Z). { apply Qfloor_unique; [change (0 <= x); lra|change (x < 1); lra]. } lia. }
  unfold to_int32. replace ((-2147483648 <=? Qtrunc x)%Z && (Qtrunc x <=? 2147483647)%Z)%bool with true.
  2:{ symmetry. apply andb_true_iff. split; apply Z.leb_le; lia. }
  cbn [rbind]. replace (Z.to_nat (Qtrunc x)) with 0%nat by lia. reflexivity.
Qed.

(** ** the scan of one type of lines *)
Definition prun (a : bool) (s : state) (n : nat) (p : Q * Q) : run :=
  let u := mkS (s_fitter s) (s_noism s) (s_cont s) n in if a then abs_run u (s_ve s) p else em_run u (s_va s) p.
Definition bt (key : Q * Q -> f64) (o : option (Q * Q)) : best :=
  match o with None => mkB PInf None None | Some (z, v) => mkB (key (z, v)) (Some v) (Some z) end.
(** what the scan changes *)
Record frame (a : bool) (Zidx : nat) (s s' : state) : Prop := mkFr {
  fr_fitter : s_fitter s' = s_fitter s; fr_noism : s_noism s' = s_noism s; fr_cont : s_cont s' = s_cont s;
  fr_chi : s_chi s' = s_chi s; fr_alv : s_alv s' = s_alv s; fr_elv : s_elv s' = s_elv s;
  fr_other : get_vel (negb a) s' = get_vel (negb a) s; fr_sol : only_at Zidx (s_sol s) (s_sol s') }.
Definition last_run (a : bool) (Zidx n : nat) (ps : list (Q * Q)) (s s' : state) : Prop :=
  (ps = [] -> s' = s) /\
  forall q z v, ps = (q ++ [(z, v)])%list -> get_vel a s' = Some v /\ nth_error (s_sol s') Zidx = Some (prun a s n (z, v)).

Fixpoint ploop (e : env) (a : bool) (n Zidx : nat) (ps : list (Q * Q)) (b : best) (s : state) : res (best * state) :=
  match ps with
  | [] => Ok (b, s)
  | (z, v) :: t =>
      do (m, s) <- fit e (set_vel a s v) n z Zidx;
      ploop e a n Zidx t (if flt m (b_merit b) then mkB m (get_vel a s) (Some z) else b) s
  end.
Lemma vloop_ploop e a n Zidx z vs : forall b s, vloop e a n Zidx z vs b s = ploop e a n Zidx (map (fun v => (z, v)) vs) b s.
Proof.
  induction vs as [|v t IH]; intros b s; [reflexivity|]. cbn [vloop map ploop].
  destruct (fit e (set_vel a s v) n z Zidx) as [[m s1]| |]; cbn [rbind]; auto.
Qed.
Lemma ploop_app e a n Zidx p q : forall b s,
  ploop e a n Zidx (p ++ q) b s = (do (b, s) <- ploop e a n Zidx p b s; ploop e a n Zidx q b s).
Proof.
  induction p as [|[z v] t IH]; intros b s; [reflexivity|]. cbn [app ploop].
  destruct (fit e (set_vel a s v) n z Zidx) as [[m s1]| |]; cbn [rbind]; auto.
Qed.
Lemma zloop_ploop e zs a n Zidx vs ks : (forall k, In k ks -> (k < length zs)%nat) -> forall b s,
  zloop e zs a n Zidx ks vs b s = ploop e a n Zidx (tests (map (fun k => nth k zs 0) ks) vs) b s.
Proof.
  induction ks as [|k t IH]; intros H b s; [reflexivity|]. cbn [zloop map tests flat_map].
  unfold vget. rewrite (nth_error_nth' zs 0) by (apply H; left; reflexivity). cbn [rbind].
  rewrite vloop_ploop, ploop_app. destruct (ploop e a n Zidx _ b s) as [[b1 s1]| |]; cbn [rbind]; auto.
  apply IH. intros j I. apply H. right. exact I.
Qed.
Lemma key_frame a Zidx s s' n p : frame a Zidx s s' -> prun a s' n p = prun a s n p.
Proof. intro F. unfold prun. rewrite (fr_fitter _ _ _ _ F), (fr_noism _ _ _ _ F), (fr_cont _ _ _ _ F). pose proof (fr_other _ _ _ _ F) as O. destruct a; cbn in O; rewrite O; reflexivity. Qed.
Lemma frame_refl a Zidx s : frame a Zidx s s.
Proof. constructor; auto. split; auto. Qed.
Lemma frame_trans a Zidx s1 s2 s3 : frame a Zidx s1 s2 -> frame a Zidx s2 s3 -> frame a Zidx s1 s3.
Proof.
  intros [A1 A2 A3 A4 A5 A6 A7 [A8 A9]] [B1 B2 B3 B4 B5 B6 B7 [B8 B9]]. constructor; try congruence. split; [congruence|].
  intros j N. rewrite B9, A9; auto.
Qed.
Lemma one_fit e a n Zidx z v s : s_fitter s <> Own -> (Zidx < length (s_sol s))%nat ->
  exists s', fit e (set_vel a s v) n z Zidx = Ok (e_merit e (prun a s n (z, v)), s') /\ frame a Zidx s s' /\
    get_vel a s' = Some v /\ nth_error (s_sol s') Zidx = Some (prun a s n (z, v)).
Proof.
  intros F L. unfold fit. set (r := mkRun _ _ _ _).
  assert (R : r = prun a s n (z, v)) by (unfold r, prun, abs_run, em_run; destruct a; reflexivity).
  assert (E : s_sol (set_vel a s v) = s_sol s) by (destruct a; reflexivity). rewrite E.
  destruct (vset_ok (s_sol s) Zidx r L) as (l & -> & Ll & N & O). cbn [rbind].
  assert (Fi : s_fitter (set_vel a s v) = s_fitter s) by (destruct a; reflexivity). rewrite Fi.
  replace (match s_fitter s with Own => e_moved e r | _ => (s_va (set_vel a s v), s_ve (set_vel a s v)) end)
    with (s_va (set_vel a s v), s_ve (set_vel a s v)) by (destruct (s_fitter s); congruence).
  eexists. split; [rewrite R; reflexivity|]. rewrite <- R. destruct a; (split; [constructor; try reflexivity; split; auto|split; [reflexivity|exact N]]).
Qed.
Lemma ploop_spec e a n Zidx ps : forall s o, s_fitter s <> Own -> (Zidx < length (s_sol s))%nat ->
  let key := fun p => e_merit e (prun a s n p) in
  exists s', ploop e a n Zidx ps (bt key o) s = Ok (bt key (fold_left (pick key) ps o), s') /\
    frame a Zidx s s' /\ last_run a Zidx n ps s s'.
Proof.
  induction ps as [|p ps IH] using rev_ind; intros s o F L key.
  - exists s. split; [reflexivity|]. split; [apply frame_refl|]. split; auto. intros q z v E. destruct q; discriminate.
  - rewrite ploop_app. destruct (IH s o F L) as (s1 & E1 & F1 & L1). fold key in E1. rewrite E1. cbn [rbind].
    destruct p as [z v]. cbn [ploop].
    destruct (one_fit e a n Zidx z v s1) as (s2 & E2 & F2 & V2 & N2).
    { rewrite (fr_fitter _ _ _ _ F1). exact F. } { destruct (fr_sol _ _ _ _ F1) as [Q1 _]. rewrite Q1. exact L. }
    rewrite E2. cbn [rbind]. exists s2. rewrite V2. split; [|split; [apply (frame_trans _ _ _ s1); auto|]].
    + rewrite fold_left_app. cbn [fold_left]. f_equal. f_equal.
      rewrite (key_frame _ _ _ _ _ _ F1). change (e_merit e (prun a s n (z, v))) with (key (z, v)).
      destruct (fold_left (pick key) ps o) as [[z1 v1]|]; unfold pick; cbn [bt b_merit kcur]; destruct (flt _ _); reflexivity.
    + split; [intro E; destruct ps; discriminate|]. intros q z' v' E. apply app_inj_tail in E. destruct E as [_ E]. injection E as <- <-.
      split; [exact V2|]. rewrite N2. f_equal. apply (key_frame _ _ _ _ _ _ F1).
Qed.
