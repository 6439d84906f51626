From Coq Require Import String.
From Verif Require Import Base RangeModel RangeProofs MeikModel MeikProofs FpcModel FpcSpec FpcProofs FpcProofs2.
Open Scope Q_scope. Open Scope string_scope.

Definition empty_pass : pass := mkPass [] [] [] [] [] [] [].
Definition at' (id : string) (z : Q) : ranked := (id, Some (mkC z 0)).
Definition exA : result := mkR [1; 2; 3; 4] [mkLS (Some 100) (Some 101) 0; mkLS (Some 200) (Some 201) 0; mkLS (Some 300) (Some 301) 0; mkLS (Some 400) (Some 401) 0]
  [mkTS "a1" (Some 1) 0; mkTS "a2" (Some 0) 0; mkTS "a3" None 0; mkTS "" (Some 1) 0].
Definition exB : result := mkR [1; 2; 3; 4] [mkLS (Some 110) (Some 111) 0; mkLS (Some 210) (Some 211) 0; mkLS (Some 310) (Some 311) 0; mkLS (Some 410) (Some 411) 0]
  [mkTS "b1" (Some 1) 0; mkTS "b2" (Some 1) 0; mkTS "b3" (Some 1) 0; mkTS "b4" (Some 1) 0].
(** two candidates of b 1e-4 apart, on a finer grid *)
Definition exF : result := mkR [1; 2; 20001 # 10000] [mkLS (Some 100) (Some 101) 0; mkLS (Some 200) (Some 201) 0; mkLS (Some 300) (Some 301) 0]
  [mkTS "a1" (Some 1) 0; mkTS "a2" (Some 1) 0; mkTS "a3" (Some 1) 0].

Definition get {A} (d : A) (r : res A) : A := match r with Ok x => x | _ => d end.
Definition pA := get empty_pass (SetFirstPassCandidates exA empty_pass [at' "FPE0" 1]).
Definition pB := get empty_pass (SetFirstPassCandidates exB empty_pass [at' "FPB0" 1; at' "FPB1" 2]).
Definition pF := get empty_pass (SetFirstPassCandidates exF empty_pass [at' "FPB0" 2; at' "FPB1" (20001 # 10000)]).
Definition pAB := get empty_pass (Combine_firstpass_candidates exA pA pB).

Lemma real_list l : Forall (fun c : ranked => snd c <> None) l -> real l.
Proof. intros H c Hc. rewrite Forall_forall in H. specialize (H c Hc). destruct (snd c) as [k|] eqn:E; [|congruence]. exists (c_z k), k. auto. Qed.
Ltac whole_tac := split; [apply real_list; repeat constructor; discriminate|vm_compute; repeat split; reflexivity].
Lemma wA : whole pA. Proof. whole_tac. Qed.
Lemma wB : whole pB. Proof. whole_tac. Qed.
Lemma wF : whole pF. Proof. whole_tac. Qed.
Lemma solB : solution exB 2 (mkLS (Some 210) (Some 211) 0) (mkTS "b2" (Some 1) 0).
Proof. exists 1%nat, 2. repeat split; try reflexivity. intros j y Hj H. assert (j = 0)%nat as -> by lia. inversion H. intro K. discriminate K. Qed.
Lemma solA : solution exA 2 (mkLS (Some 200) (Some 201) 0) (mkTS "a2" (Some 0) 0).
Proof. exists 1%nat, 2. repeat split; try reflexivity. intros j y Hj H. assert (j = 0)%nat as -> by lia. inversion H. intro K. discriminate K. Qed.

Lemma close_witness : exists r p b p' i j ci cj zi zj, complete r /\ whole p /\ whole b /\ Combine_firstpass_candidates r p b = Ok p' /\ (i < j)%nat /\
  nth_error (p_cands p') i = Some ci /\ nth_error (p_cands p') j = Some cj /\ at_z ci zi /\ at_z cj zj /\ near zi zj.
Proof.
  exists exF, pA, pF, (get empty_pass (Combine_firstpass_candidates exF pA pF)), 1%nat, 2%nat, (at' "FPB0" 2), (at' "FPB1" (20001 # 10000)), 2, (20001 # 10000).
  split; [split; reflexivity|]. split; [exact wA|]. split; [exact wF|]. split; [vm_compute; reflexivity|]. split; [lia|]. split; [vm_compute; reflexivity|]. split; [vm_compute; reflexivity|].
  split; [eexists; split; reflexivity|]. split; [eexists; split; reflexivity|]. vm_compute. reflexivity.
Qed.
Lemma continuum_witness : exists rA rB cs pa pb p' i c z l t, complete rA /\ complete rB /\ r_z rA = r_z rB /\ whole pa /\
  SetFirstPassCandidates rB empty_pass cs = Ok pb /\ Combine_firstpass_candidates rA pa pb = Ok p' /\
  nth_error (p_cands p') i = Some c /\ In c cs /\ at_z c z /\ solution rB z l t /\ nth_error (p_elv p') i = Some (l_elv l) /\ nth_error (p_tpl p') i <> Some t.
Proof.
  exists exA, exB, [at' "FPB0" 1; at' "FPB1" 2], pA, pB, pAB, 1%nat, (at' "FPB1" 2), 2, (mkLS (Some 210) (Some 211) 0), (mkTS "b2" (Some 1) 0).
  split; [split; reflexivity|]. split; [split; reflexivity|]. split; [reflexivity|]. split; [exact wA|]. split; [vm_compute; reflexivity|]. split; [vm_compute; reflexivity|].
  split; [vm_compute; reflexivity|]. split; [right; left; reflexivity|]. split; [eexists; split; reflexivity|]. split; [exact solB|]. split; [vm_compute; reflexivity|]. vm_compute. discriminate.
Qed.
Lemma velocity_witness : exists r p b p' xs i x e, complete r /\ whole p /\ whole b /\ Combine_firstpass_candidates r p b = Ok p' /\ buildFirstPassExtremaResults r (p_cands p') = Ok xs /\
  nth_error xs i = Some x /\ nth_error (p_elv p') i = Some e /\ x_elv x <> e.
Proof.
  exists exA, pA, pB, pAB, (get [] (buildFirstPassExtremaResults exA (p_cands pAB))), 1%nat.
  eexists. eexists. split; [split; reflexivity|]. split; [exact wA|]. split; [exact wB|]. split; [vm_compute; reflexivity|]. split; [vm_compute; reflexivity|].
  split; [vm_compute; reflexivity|]. split; [vm_compute; reflexivity|]. vm_compute. discriminate.
Qed.
(** with the candidates of one pass, the report and the second pass start from the same velocities *)
Lemma report_agrees r p zs p' xs : complete r -> SetFirstPassCandidates r p zs = Ok p' -> buildFirstPassExtremaResults r (p_cands p') = Ok xs ->
  map x_elv xs = p_elv p' /\ map x_alv xs = p_alv p' /\ map (fun x => (x_id x, Some (x_cand x))) xs = zs.
Proof.
  intros Hr. rewrite set_eq. destruct (mapr (srow r) zs) as [rows| |] eqn:M; cbn [rbind]; [|discriminate|discriminate]. intro H. inversion H; subst p'. clear H. cbn [p_cands p_elv p_alv].
  revert rows M xs. induction zs as [|(id, o) zs IH]; intros rows M xs B; cbn [mapr] in M; cbn [buildFirstPassExtremaResults] in B.
  - inversion M; inversion B; subst. auto.
  - unfold srow at 1 in M. unfold redshift in M. cbn [snd] in M. destruct o as [c|]; cbn [rbind] in M, B; [|discriminate].
    destruct (getIndex (r_z r) (c_z c)) as [idx| |]; cbn [rbind] in M, B; [|discriminate|discriminate].
    destruct (vget (r_lines r) idx) as [l| |]; cbn [rbind] in M, B; [|discriminate|discriminate].
    destruct (vget (r_cont r) idx) as [k| |]; cbn [rbind] in M, B; [|discriminate|discriminate].
    destruct (mapr (srow r) zs) as [rows'| |]; cbn [rbind] in M; [|discriminate|discriminate]. inversion M; subst rows.
    destruct (buildFirstPassExtremaResults r zs) as [xs'| |]; cbn [rbind] in B; [|discriminate|discriminate]. inversion B; subst xs.
    destruct (IH rows' eq_refl xs' eq_refl) as (E1 & E2 & E3). cbn [map x_elv x_alv x_id x_cand fst snd]. rewrite E1, E2, E3. auto.
Qed.
