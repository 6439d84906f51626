From Coq Require Import Qabs Lqa Setoid.
From Verif Require Import Base RangeModel RangeProofs AxisModel RebinModel CalzModel MeikModel MeikProofs TplModel SvdModel SvdSpec SvdProofs TcmbModel TcmbSpec TcmbProofs TcmbProofs3.
Open Scope Q_scope.

(** a library of least squares: Gram-Schmidt for the solution, and for each column of the inverse of the normal matrix *)
Definition inv_rows (k : nat) (rs : list obs) (j : nat) : list obs := map (fun i => mkObs 1 (if Nat.eqb i j then 1 else 0) (map (fun l => Qred (normal rs i l)) (seq 0 k))) (seq 0 k).
Definition inverse_of (k : nat) (rs : list obs) : list (list Q) :=
  let cols := map (fun j => fst (gs_solve k (inv_rows k rs j))) (seq 0 k) in map (fun l => map (fun c => nth l c 0) cols) (seq 0 k).
Definition gs_full (k : nat) (rs : list obs) : list Q * list (list Q) * Q := let c := fst (gs_solve k rs) in (c, inverse_of k rs, Qred (squares rs c)).
Lemma sumto_shift n f : sumto (S n) f == f 0%nat + sumto n (fun i => f (S i)).
Proof. induction n as [|n IH]; [cbn; ring|]. change (sumto (S (S n)) f) with (sumto (S n) f + f (S n)). rewrite IH. cbn [sumto]. ring. Qed.
Lemma dot_sumto f : forall k s c, length c = k -> dot (map f (seq s k)) c == sumto k (fun l => f (s + l)%nat * at_ c l).
Proof.
  induction k as [|k IH]; intros s c L; destruct c as [|a c]; try discriminate; [reflexivity|]. cbn [seq map dot]. rewrite (IH (S s) c) by (cbn in L; lia). rewrite sumto_shift. rewrite Nat.add_0_r. cbn [at_ nth].
  assert (E : sumto k (fun l => f (S s + l)%nat * at_ c l) == sumto k (fun i => f (s + S i)%nat * at_ (a :: c) (S i))) by (apply sumto_ext; intros i _; replace (s + S i)%nat with (S s + i)%nat by lia; reflexivity).
  rewrite E. reflexivity.
Qed.
Lemma squares_nn rs c : (forall r, In r rs -> 0 <= o_w r) -> 0 <= squares rs c.
Proof.
  induction rs as [|r rs IH]; intros H; cbn [squares]; [lra|]. pose proof (IH (fun x I => H x (or_intror I))). pose proof (H r (or_introl eq_refl)).
  pose proof (Qmult_le_0_compat _ _ H1 (sq0 (o_y r - dot (o_row r) c))). lra.
Qed.
Lemma squares_zero rs c : (forall r, In r rs -> o_w r == 1) -> squares rs c <= 0 -> forall r, In r rs -> o_y r == dot (o_row r) c.
Proof.
  induction rs as [|r rs IH]; intros H Z r' I; [destruct I|]. cbn [squares] in Z. assert (N : 0 <= squares rs c) by (apply squares_nn; intros x Ix; rewrite (H x (or_intror Ix)); lra).
  assert (W : o_w r == 1) by (apply H; left; reflexivity). rewrite W in Z. pose proof (sq0 (o_y r - dot (o_row r) c)) as Sn. destruct I as [<-|I].
  - assert (E : (o_y r - dot (o_row r) c) * (o_y r - dot (o_row r) c) == 0) by lra. apply Qmult_integral in E. lra.
  - apply IH; [intros; apply H; right; assumption| |exact I]. lra.
Qed.
Lemma squares_exact rs c : (forall r, In r rs -> o_y r == dot (o_row r) c) -> squares rs c == 0.
Proof. induction rs as [|r rs IH]; intros H; cbn [squares]; [reflexivity|]. rewrite (H r (or_introl eq_refl)), IH by (intros; apply H; right; assumption). ring. Qed.
Lemma at_mapseq f n i : (i < n)%nat -> at_ (map f (seq 0 n)) i = f i.
Proof. intros L. unfold at_. rewrite (nth_indep _ 0 (f 0%nat)) by (rewrite map_length, seq_length; exact L). rewrite map_nth, seq_nth by exact L. reflexivity. Qed.
Lemma inverse_ok k rs : (exists m, is_inverse k (normal rs) m) -> is_inverse k (normal rs) (entry (inverse_of k rs)).
Proof.
  intros (m & M) i j Li Lj. set (x := fst (gs_solve k (inv_rows k rs j))).
  assert (Hr : forall r, In r (inv_rows k rs j) -> 0 <= o_w r /\ length (o_row r) = k) by (intros r I; unfold inv_rows in I; apply in_map_iff in I; destruct I as (q & <- & _); cbn; split; [lra|rewrite map_length, seq_length; reflexivity]).
  destruct (gs_exact k (inv_rows k rs j) Hr) as (Lx & _ & Min). fold x in Lx, Min.
  assert (En : forall l, (l < k)%nat -> entry (inverse_of k rs) l j = at_ x l).
  { intros l Ll. unfold entry, inverse_of. cbv zeta. rewrite (nth_indep _ [] (map (fun c => nth 0 c 0) (map (fun j => fst (gs_solve k (inv_rows k rs j))) (seq 0 k)))) by (rewrite map_length, seq_length; exact Ll).
    rewrite (map_nth (fun l => map (fun c => nth l c 0) (map (fun j => fst (gs_solve k (inv_rows k rs j))) (seq 0 k)))), seq_nth by exact Ll. cbn [Nat.add]. rewrite map_map.
    exact (at_mapseq (fun j => nth l (fst (gs_solve k (inv_rows k rs j))) 0) k j Lj). }
  assert (E1 : sumto k (fun l => normal rs i l * entry (inverse_of k rs) l j) == sumto k (fun l => normal rs i l * at_ x l)) by (apply sumto_ext; intros l Ll; rewrite En by exact Ll; reflexivity).
  rewrite E1.
  assert (Mx : squares (inv_rows k rs j) x <= 0).
  { pose proof (Min (map (fun l => m l j) (seq 0 k)) ltac:(rewrite map_length, seq_length; reflexivity)) as Le. rewrite (squares_exact (inv_rows k rs j) (map (fun l => m l j) (seq 0 k))) in Le; [exact Le|].
    intros r I. unfold inv_rows in I. apply in_map_iff in I. destruct I as (q & <- & Iq). apply in_seq in Iq. cbn [o_y o_row]. rewrite dot_sumto by (rewrite map_length, seq_length; reflexivity). rewrite <- (M q j) by lia. apply sumto_ext. intros l Ll. cbn [Nat.add]. rewrite at_mapseq by exact Ll. rewrite Qred_correct. reflexivity. }
  assert (Hw : forall r, In r (inv_rows k rs j) -> o_w r == 1) by (intros r I; unfold inv_rows in I; apply in_map_iff in I; destruct I as (q & <- & _); reflexivity).
  assert (Ii : In (mkObs 1 (if Nat.eqb i j then 1 else 0) (map (fun l => Qred (normal rs i l)) (seq 0 k))) (inv_rows k rs j)) by (apply (in_map (fun i => mkObs 1 (if Nat.eqb i j then 1 else 0) (map (fun l => Qred (normal rs i l)) (seq 0 k)))); apply in_seq; lia).
  pose proof (squares_zero _ _ Hw Mx _ Ii) as E. cbn [o_y o_row] in E. rewrite E, dot_sumto by exact Lx. apply sumto_ext. intros l Ll. cbn [Nat.add]. rewrite Qred_correct. reflexivity.
Qed.
Lemma gs_full_ok : least_squares gs_full.
Proof.
  intros k rs H. cbv zeta. unfold gs_full. cbn [fst snd]. destruct (gs_exact k rs H) as (L & _ & M). split; [exact L|]. split; [apply Qred_correct|]. split; [exact M|]. apply inverse_ok.
Qed.

(** the fits need two templates and as many samples as templates *)
Section Need.
  Variables (sqrtf : Q -> Q) (solve : nat -> list obs -> list Q * list (list Q) * Q) (dblmin : Q).
  Lemma mapr_len {A B} (f : A -> res B) : forall l l', mapr f l = Ok l' -> length l' = length l.
  Proof. induction l as [|a l IH]; intros l' H; cbn [mapr] in H; [inversion H; reflexivity|]. destruct (f a); try discriminate. cbn [rbind] in H. destruct (mapr f l) eqn:E; try discriminate. cbn [rbind] in H. inversion H. cbn. rewrite (IH _ eq_refl). reflexivity. Qed.
  Lemma each_len f : forall ts ts' bs, each f ts = Ok (ts', bs) -> length ts' = length ts.
  Proof. induction ts as [|t ts IH]; intros ts' bs H; cbn [each] in H; [inversion H; reflexivity|]. destruct (f t) as [t1 [b| |]]; try discriminate. destruct (each f ts) as [[a c]| |] eqn:E; try discriminate. cbn [rbind fst snd] in H. inversion H. cbn. rewrite (IH _ _ eq_refl). reflexivity. Qed.
  Lemma init_len ks ke z cal mei : forall ts ts', init_each ks ke z cal mei ts = Ok ts' -> length ts' = length ts.
  Proof. induction ts as [|t ts IH]; intros ts' H; cbn [init_each] in H; [inversion H; reflexivity|]. destruct (InitIsmIgmConfig _ _ _ _ _ _) as [t1 [b| |]]; try discriminate. destruct (init_each _ _ _ _ _ ts) eqn:E; try discriminate. cbn [rbind] in H. inversion H. cbn. rewrite (IH _ eq_refl). reflexivity. Qed.
  Lemma rebin_len lr spcr ax thr : forall ts all ov fs all' ov', rebin_loop lr spcr ax thr ts all ov = Ok (fs, all', ov') -> length fs = length ts.
  Proof.
    induction ts as [|s ts IH]; intros all ov fs all' ov' H; cbn [rebin_loop] in H; [inversion H; reflexivity|]. destruct (ClampLambdaRange _ _); try discriminate. cbn [rbind] in H. destruct (compute _ _ _ _ _ _); try discriminate. cbn [rbind] in H.
    destruct (IntersectMaskAndComputeOverlapFraction_axis _ _ _) as [o| |]; try discriminate. cbn [rbind] in H. destruct (_ || _)%bool; [discriminate|]. destruct (rebin_loop lr spcr ax thr ts _ o) as [[[fs1 a1] o1]| |] eqn:E; try discriminate. cbn [rbind] in H. inversion H. cbn. rewrite (IH _ _ _ _ _ E). reflexivity.
  Qed.
  Lemma ism_need flux err ks ke nf dust cal igm : forall el st r, ism_loop sqrtf solve flux err ks ke nf dust cal igm el st = Ok r -> el <> [] -> (2 <= length (s_tpls st) <= S ke - ks)%nat.
  Proof.
    intros [|k el] st r H N; [contradiction|]. cbn [ism_loop] in H.
    assert (Lt : exists eb ts, (if dust then match cal with None => UB | Some c => do q <- each (fun t => ApplyDustCoeff t k) (s_tpls st); Ok (GetEbmvValue c k, fst q) end else Ok (-(1), s_tpls st)) = Ok (eb, ts) /\ length ts = length (s_tpls st)).
    { destruct dust; [|eauto]. destruct cal as [c|]; [|discriminate]. destruct (each _ _) as [[a b]| |] eqn:E; try discriminate. exists (GetEbmvValue c k), a. split; [reflexivity|exact (each_len _ _ _ _ E)]. }
    destruct Lt as (eb & ts & E & L). rewrite E in H. cbn [rbind] in H. destruct (rows flux err ks (S ke - ks) nf ts) as [rs| |] eqn:R; try discriminate. cbn [rbind] in H. destruct (fit_one sqrtf solve (length ts) nf rs) as [f| |] eqn:F; try discriminate.
    unfold rows in R. apply mapr_len in R. rewrite seq_length in R. unfold fit_one in F. rewrite R in F. destruct (Nat.ltb_spec (S ke - ks) (length ts)); [discriminate|]. destruct (solve _ rs) as [[c cov] chi]. destruct (Nat.ltb_spec (length ts) 2); [discriminate|]. lia.
  Qed.
  Lemma fit_need axis flux err ts lr z thr ext dust mask cal mei ml el r : BasicFit sqrtf solve dblmin axis flux err ts lr z thr ext dust mask cal mei ml el = Ok r ->
    exists ax fs cur ov ks ke, RebinTemplate axis ts z lr thr = Ok (ax, fs, cur, ov) /\ getClosedIntervalIndices cur ax = Ok (ks, ke) /\ (2 <= length ts <= S ke - ks)%nat.
  Proof.
    intros H. unfold BasicFit in H. destruct (negb _); [discriminate|]. destruct (RebinTemplate axis ts z lr thr) as [[[[ax fs] cur] ov]| |] eqn:Rb; try discriminate. cbn [rbind] in H.
    assert (Lf : length fs = length ts).
    { unfold RebinTemplate in Rb. destruct (ShiftByWaveLength _ _ _); try discriminate. cbn [rbind] in Rb. destruct (ClampLambdaRange _ _); try discriminate. cbn [rbind] in Rb. destruct (rebin_loop _ _ _ _ _ _ _) as [[[f1 a1] o1]| |] eqn:E; try discriminate. cbn [rbind] in Rb. inversion Rb; subst. apply rebin_len in E. exact E. }
    destruct fs as [|f0 fs0] eqn:Efs; [discriminate|]. rewrite <- Efs in *. destruct (getClosedIntervalIndices cur ax) as [[ks ke]| |] eqn:Gc; try discriminate. cbn [rbind] in H.
    exists ax, fs, cur, ov, ks, ke. split; [reflexivity|]. split; [exact Gc|].
    destruct (mapr (NewTpl ax) fs) as [tp| |] eqn:Nt; try discriminate. cbn [rbind] in H. apply mapr_len in Nt.
    destruct (if (ext || dust)%bool then _ else _) as [tp2| |] eqn:It; try discriminate. cbn [rbind] in H.
    assert (L2 : length tp2 = length ts) by (destruct (ext || dust)%bool; [apply init_len in It; congruence|inversion It; subst; congruence]).
    destruct el as [|e0 el0] eqn:Eel; [discriminate|]. rewrite <- Eel in *. assert (Nel : el <> []) by (rewrite Eel; discriminate). clear Eel.
    destruct (norm_loop _ _ _ _) as [nf| |]; try discriminate. cbn [rbind] in H.
    destruct ml as [|m ml]; [discriminate|]. cbn [igm_loop] in H.
    assert (Lt : exists t b, (if ext then if Qltb lya (rbeg cur / (1 + z)) then Ok (tp2, false) else do q <- each (fun t => ApplyMeiksinCoeff t m) tp2; Ok (fst q, forallb (fun b => b) (snd q)) else Ok (tp2, false)) = Ok (t, b) /\ length t = length tp2).
    { cbn [s_tpls] in H. destruct ext; [|eauto]. destruct (Qltb _ _); [eauto|]. destruct (each _ tp2) as [[a b]| |] eqn:E; try discriminate. cbn [rbind fst snd]. exists a, (forallb (fun b => b) b). split; [reflexivity|exact (each_len _ _ _ _ E)]. }
    destruct Lt as (t & b & Et & Lt). cbn [s_tpls s_best s_last] in H. rewrite Et in H. cbn [rbind] in H.
    destruct (ism_loop _ _ _ _ _ _ _ _ _ _ _ _) as [x| |] eqn:Is; try discriminate. apply ism_need in Is; [|exact Nel]. cbn [s_tpls] in Is. lia.
  Qed.
End Need.
