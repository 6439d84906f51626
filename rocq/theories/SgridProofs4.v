(** C93: examples and witnesses. *)
From Coq Require Import String.
From Verif Require Import Base RBase RangeModel RangeLogModel RangeLogProofs FpcModel FpcSpec FpcProofs4 SgridModel SgridSpec SgridProofs SgridProofs2 SgridProofs3.
Open Scope Q_scope.

Lemma ex_fit_lin : fit_lin (mkRange 0 1) (1 # 100).
Proof. repeat split; vm_compute; congruence || reflexivity. Qed.
Lemma ex_coarse : exists v, lineModel_grid_lin (mkRange 0 1) (1 # 100) 10 = Ok (v, (1 # 100) * 10) /\ map Qred v = [0; 1#10; 1#5; 3#10; 2#5; 1#2; 3#5; 7#10; 4#5; 9#10; 1].
Proof. eexists. split; vm_compute; reflexivity. Qed.
Lemma ex_fine : exists v, lineModel_grid_lin (mkRange 0 (1 # 20)) (1 # 100) 10 = Ok (v, 1 # 100) /\ map Qred v = [0; 1#100; 1#50; 3#100; 1#25; 1#20].
Proof. eexists. split; vm_compute; reflexivity. Qed.
(** the coarse grid is not a bound: 31 redshifts instead of 4 *)
Lemma coarse_more : exists vc v s, grid_lin (mkRange 0 (3 # 10)) (1 # 10) = Ok vc /\ lineModel_grid_lin (mkRange 0 (3 # 10)) (1 # 100) 10 = Ok (v, s) /\ List.length vc = 4%nat /\ List.length v = 31%nat /\ s = 1 # 100.
Proof. do 3 eexists. repeat split; vm_compute; reflexivity. Qed.
(** negative redshifts *)
Lemma negative_meas : exists zref half step v x, 0 <= zref /\ 0 <= half /\ default_epsilon < step /\ lineMeas_grid_lin zref half step = Ok v /\ nth_error v 0 = Some x /\ x < 0.
Proof. exists 0, (1 # 100), (1 # 100). do 2 eexists. repeat split; try (vm_compute; congruence); vm_compute; reflexivity. Qed.
Lemma ex_meas : exists v, lineMeas_grid_lin (1 # 2) (3 # 100) (2 # 100) = Ok v /\ map Qred v = [23#50; 12#25; 1#2; 13#25; 27#50].
Proof. eexists. split; vm_compute; reflexivity. Qed.
Open Scope R_scope.
Lemma exp_gt d : 0 < d -> 1 + d < exp d. Proof. intro H. apply exp_ineq1. lra. Qed.
Lemma ex_fit_log : fit_log (mkRR 0 1) (1 / 10).
Proof.
  unfold fit_log. cbn [rb re]. assert (X : 1 + 1 / 10 < exp (1 / 10)) by (apply exp_gt; lra). unfold epsR.
  repeat split; try lra.
  apply Rle_lt_trans with (20 / (1 / 10)); [|lra]. unfold Rdiv at 1 4. apply Rmult_le_compat_r; [lra|].
  apply Rle_trans with (ln (exp 3)); [|rewrite ln_exp; lra]. apply ln_le; [lra|]. pose proof (exp_gt 3 ltac:(lra)). lra.
Qed.
Lemma ex_meas_log : 0 < 1 + 1 /\ 0 <= 1 / 10 /\ epsR < (1 + 1) * exp (- (1 / 10 + 1 / 10)) * (exp (1 / 10) - 1) /\ 0 < 1 / 10 /\ 2 * (1 / 10) / (1 / 10) < 2000000000.
Proof.
  assert (X : 1 + 1 / 10 < exp (1 / 10)) by (apply exp_gt; lra).
  assert (Y : 1 + - (1 / 10 + 1 / 10) < exp (- (1 / 10 + 1 / 10))) by (apply exp_ineq1; lra).
  unfold epsR. repeat split; try lra. nra.
Qed.
Open Scope Q_scope.
Lemma ex_pass_b : complete exA /\ real [at' "FPE0" 1; at' "FPE1" 3] /\ real [at' "FPB0" 3; at' "FPB1" 1] /\ same_redshifts [at' "FPE0" 1; at' "FPE1" 3] [at' "FPB0" 3; at' "FPB1" 1] /\
  (forall k z, In k [at' "FPE0" 1; at' "FPE1" 3] -> at_z k z -> on_grid exA z) /\ enableFirstpass_B 2 TplFit = true.
Proof.
  split; [split; reflexivity|]. split; [apply real_list; repeat constructor; discriminate|]. split; [apply real_list; repeat constructor; discriminate|].
  split; [|split; [|reflexivity]].
  - intro z. split; intros (c & [<-|[<-|[]]] & H).
    + exists (at' "FPB1" 1). split; [right; left; reflexivity|exact H].
    + exists (at' "FPB0" 3). split; [left; reflexivity|exact H].
    + exists (at' "FPE1" 3). split; [right; left; reflexivity|exact H].
    + exists (at' "FPE0" 1). split; [left; reflexivity|exact H].
  - intros k z [<-|[<-|[]]] (c & E & <-); inversion E; subst c; cbn [c_z]; eexists; (split; [|reflexivity]); cbn; auto.
Qed.
Lemma ex_null : exists fit : Q -> fitted, (forall z, In z [1; 2] -> null_fit (fit z)) /\ first_pass_check fit [1; 2] = Throw NULL_MODEL /\
  exists fit' : Q -> fitted, first_pass_check fit' [1; 2] = Ok (map fit' [1; 2]) /\ null_fit (fit' 1) /\ ~ null_fit (fit' 2).
Proof.
  set (f0 := mkF [Some 0; None] (Some 0)). assert (N0 : null_fit f0).
  { split; [intros x [K|[K|[]]]; inversion K; lra|exists 0; split; [reflexivity|lra]]. }
  exists (fun _ => f0). split; [intros; exact N0|]. split; [apply first_pass_null; intros; exact N0|].
  exists (fun z => if Qeq_bool z 1 then f0 else mkF [Some 1] None). split; [reflexivity|]. split; [exact N0|]. intros (A & _). pose proof (A 1 (or_introl eq_refl)). lra.
Qed.
