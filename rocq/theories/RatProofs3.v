From Verif Require Import Base RangeModel AxisModel MeikModel EfitModel F64 RatModel RatSpec RatProofs RatProofs2.
Open Scope Q_scope.

Section L.
  Context {C : Type}.
  Variable v : env C.
  Notation pr := (fun a : attempt C => (t_k a, t_r a)).
  Definition copied (n : nat) (t : list row) : Prop :=
    forall r, (r < n)%nat -> tried v r = false -> (0 < r)%nat /\ nth_error t r = nth_error t (r - 1).

  Lemma inner_loop c0 es0 k h s : candidate v c0 k (f_c s) -> inv v c0 es0 h s -> forall n s',
    rfold (ratio_step v k) (seq 0 n) s = Ok s' ->
    f_c s' = f_c s /\ length (f_tab s') = length (f_tab s) /\ copied n (f_tab s') /\
    exists h1, inv v c0 es0 (h ++ h1) s' /\ map pr h1 = map (fun r => (k, r)) (filter (tried v) (seq 0 n)).
  Proof.
    intros Cd I. induction n as [|n IH]; intros s' E.
    - cbn in E. inversion E; subst. split; auto. split; auto. split; [intros r L; lia|].
      exists []. rewrite app_nil_r. split; auto.
    - rewrite seq_S, rfold_app' in E. apply rbind_ok in E. destruct E as (s1 & E1 & E2). cbn [rfold plus] in E2.
      apply rbind_ok in E2. destruct E2 as (s2 & E2 & E3). inversion E3; subst s2; clear E3.
      destruct (IH s1 E1) as (F1 & F2 & F3 & h1 & I1 & M1).
      assert (Cd1 : candidate v c0 k (f_c s1)) by (rewrite F1; exact Cd).
      destruct (ratio_step_ok v c0 es0 k (h ++ h1) s1 n s' Cd1 I1 E2) as (G1 & G2 & G3 & G4).
      split; [congruence|]. split; [congruence|].
      rewrite seq_S, filter_app. cbn [filter plus]. destruct (tried v n) eqn:Tr.
      + destruct G4 as (a & Ka & Ra & I2). split.
        * intros r L T. destruct (Nat.eq_dec r n) as [En|Nn]; [subst; congruence|].
          destruct (F3 r ltac:(lia) T) as [R0 R1]. split; auto. rewrite !G3 by lia. exact R1.
        * exists (h1 ++ [a]). rewrite app_assoc. split; auto. rewrite map_app, M1, map_app. cbn [map]. rewrite Ka, Ra. reflexivity.
      + destruct G4 as (I2 & Ln & N0 & En). split.
        * intros r L T. destruct (Nat.eq_dec r n) as [Er|Nn].
          { subst r. split; auto. rewrite En. rewrite G3 by lia. reflexivity. }
          destruct (F3 r ltac:(lia) T) as [R0 R1]. split; auto. rewrite !G3 by lia. exact R1.
        * exists h1. split; auto. rewrite app_nil_r. exact M1.
  Qed.

  Lemma inv_c c0 es0 h s c : inv v c0 es0 h s -> inv v c0 es0 h (mkF (f_es s) (f_tab s) (f_saved s) c (f_best s) (f_k s) (f_sol s)).
  Proof. intros (A & B & D & E). repeat split; auto. Qed.

  Lemma outer_loop c0 es0 s : f_c s = c0 -> inv v c0 es0 [] s -> forall n s',
    rfold (continuum_step v) (seq 0 n) s = Ok s' ->
    length (f_tab s') = length (f_tab s) /\
    (match n with O => f_c s' = c0 | S j => candidate v c0 j (f_c s') /\ copied (nratio v) (f_tab s') end) /\
    exists h, inv v c0 es0 h s' /\ map pr h = pairs n (nratio v) (tried v).
  Proof.
    intros C0 I. induction n as [|n IH]; intros s' E.
    - cbn in E. inversion E; subst. split; auto. split; auto. exists []. split; auto.
    - rewrite seq_S, rfold_app' in E. apply rbind_ok in E. destruct E as (s1 & E1 & E2). cbn [rfold plus] in E2.
      apply rbind_ok in E2. destruct E2 as (s2 & E2 & E3). inversion E3; subst s2; clear E3.
      destruct (IH s1 E1) as (F1 & F2 & h & I1 & M1).
      unfold continuum_step in E2. apply rbind_ok in E2. destruct E2 as (c & Ec & E2).
      assert (Cd : candidate v c0 n c).
      { apply (candidate_load v c0 n (f_c s1)); auto. destruct n as [|j]; [left; auto|]. right. exists j. tauto. }
      apply (inner_loop c0 es0 n h _) with (n := nratio v) in E2; [|exact Cd|apply inv_c; exact I1].
      cbn [f_c f_tab] in E2. destruct E2 as (G1 & G2 & G3 & h1 & I2 & M2).
      split; [congruence|]. split; [split; [rewrite G1; exact Cd|exact G3]|].
      exists (h ++ h1). split; auto. rewrite map_app, M1, M2. unfold pairs. rewrite seq_S, flat_map_app. cbn [flat_map plus].
      rewrite app_nil_r. reflexivity.
  Qed.

  Lemma prepare_inv es tab t c : prepareFit v es tab = Ok t -> inv v c es [] (mkF es t undefIdx c PInf undefIdx None).
  Proof.
    intro E. split; [exact Logic.I|]. split; [reflexivity|]. split; [cbn; auto|].
    intros K r w _ N. cbn [f_tab] in N. unfold prepareFit in E. rewrite K in E.
    destruct (negb (Nat.eqb (length (priors v)) 0) && Nat.ltb 1 (length es)); [discriminate|]. inversion E; subst t.
    rewrite nth_error_map in N. destruct (nth_error tab r); inversion N. cbn. auto.
  Qed.

  (** what fit does at the end *)
  Definition tail (s : fstate (C := C)) (enableLogging : bool) (s' : fstate (C := C)) : Prop :=
    f_tab s' = f_tab s /\ f_saved s' = f_saved s /\ f_best s' = f_best s /\ f_k s' = f_k s /\
    if enableLogging
    then (if match comp v with TplFit => negb (svdlc v) && Nat.ltb 1 (nContinuum v) | _ => false end
          then LoadFitContinuum v (f_k s) (f_c s) = Ok (f_c s') else f_c s' = f_c s) /\
         match knd v with
         | TplRatio => f_sol s' = Some (f_es s', f_c s') /\ exists es w, setTplratioModel v (f_c s') (f_saved s) (f_es s) = Ok es /\
                       vget (f_tab s) (Z.to_nat (f_saved s)) = Ok w /\ reset_elts es (w_elts w) = Ok (f_es s')
         | Rules => f_sol s' = f_sol s /\ f_es s' = f_es s
         end
    else s' = s.
  Lemma fit_split es tab c lg s' : fit v es tab c lg = Ok s' ->
    exists s h, inv v c es h s /\ map pr h = pairs (nContinuum v) (nratio v) (tried v) /\ length (f_tab s) = length tab /\
      (match nContinuum v with O => f_c s = c | S j => candidate v c j (f_c s) /\ copied (nratio v) (f_tab s) end) /\ tail s lg s'.
  Proof.
    unfold fit. intro E. apply rbind_ok in E. destruct E as (t & Et & E). apply rbind_ok in E. destruct E as (s & Es & E).
    pose proof (prepare_inv es tab t c Et) as I0.
    destruct (outer_loop c es (mkF es t undefIdx c PInf undefIdx None) eq_refl I0 _ _ Es) as (L & Lc & h & I1 & M).
    exists s, h. split; [exact I1|]. split; [exact M|].
    assert (Lt : length t = length tab).
    { unfold prepareFit in Et. destruct (knd v); [|inversion Et; reflexivity].
      destruct (negb (Nat.eqb (length (priors v)) 0) && Nat.ltb 1 (length es)); [discriminate|]. inversion Et. apply map_length. }
    split; [cbn [f_tab] in L; congruence|]. split; [exact Lc|].
    unfold tail. destruct lg; cbn [negb] in E; [|inversion E; subst; repeat split; auto].
    apply rbind_ok in E. destruct E as (s1 & E1 & E).
    assert (G : f_tab s1 = f_tab s /\ f_saved s1 = f_saved s /\ f_best s1 = f_best s /\ f_k s1 = f_k s /\ f_es s1 = f_es s /\ f_sol s1 = f_sol s /\
                (if match comp v with TplFit => negb (svdlc v) && Nat.ltb 1 (nContinuum v) | _ => false end
                 then LoadFitContinuum v (f_k s) (f_c s) = Ok (f_c s1) else f_c s1 = f_c s)).
    { destruct (comp v); try (inversion E1; subst; repeat split; reflexivity).
      destruct (negb (svdlc v) && Nat.ltb 1 (nContinuum v)); [|inversion E1; subst; repeat split; reflexivity].
      apply rbind_ok in E1. destruct E1 as (c' & Ec & E1). inversion E1; subst s1. cbn. repeat split; auto. }
    destruct G as (G1 & G2 & G3 & G4 & G5 & G6 & G7). destruct (knd v).
    - apply rbind_ok in E. destruct E as (s2 & E2 & E). inversion E; subst s'; clear E. cbn [f_es f_tab f_saved f_c f_best f_k f_sol].
      unfold resetToBestRatio in E2. apply rbind_ok in E2. destruct E2 as (es1 & Ea & E2). apply rbind_ok in E2. destruct E2 as (w & Ew & E2).
      apply rbind_ok in E2. destruct E2 as (es2 & Ee & E2). inversion E2; subst s2; clear E2. cbn [set_es f_es f_tab f_saved f_c f_best f_k f_sol].
      rewrite G1, G2, G3, G4. repeat split; auto. exists es1, w. rewrite <- G2 at 1. rewrite <- G5. rewrite <- G1, <- G2. auto.
    - inversion E; subst s'. repeat split; auto.
  Qed.
End L.
