(** Proofs for C78: errors, refutations, examples. *)
From Verif Require Import Base RangeModel RangeSpec RangeProofs ZGridModel ZGridSpec ZGridProofs MeikModel LmrModel LmrSpec LmrProofs LmrProofs2 LmrProofs3.
Open Scope Q_scope.

Lemma init_throw r z nT nR priors : length priors <> nR -> Init r z nT nR priors = Throw INTERNAL_ERROR.
Proof. intro H. unfold Init. rewrite (proj2 (Nat.eqb_neq _ _) H). reflexivity. Qed.

Lemma ratio_sizes r i q : (1 <= length (q_chi2 q))%nat ->
  ((length (r_z r) <= i)%nat \/ length (q_chi2 q) <> length (r_rchi2 r) \/ length (q_marg q) <> length (q_chi2 q) \/
   length (q_strong q) <> length (q_chi2 q) \/ length (q_nl q) <> length (q_chi2 q) \/ length (q_pl q) <> length (q_chi2 q)) ->
  SetChisquareTplratioResult r i q = Throw INTERNAL_ERROR.
Proof.
  intros H1 H. unfold SetChisquareTplratioResult. rewrite (proj2 (Nat.ltb_ge _ _) H1).
  destruct (Nat.leb_spec (length (r_z r)) i) as [L|L]; [reflexivity|].
  match goal with |- context [negb ?b] => assert (E : b = false) end.
  { apply Bool.not_true_is_false. intro K. rewrite !Bool.andb_true_iff in K. destruct K as ((((K1 & K2) & K3) & K4) & K5).
    apply Nat.eqb_eq in K1, K2, K3, K4, K5. lia. }
  rewrite E. reflexivity.
Qed.

Lemma first_pass_spec fitf nT nR z priors : (forall n x, shaped nT nR (fitf n x)) -> length priors = nR ->
  exists r0 r rows, Init empty_res z nT nR priors = Ok r0 /\ first_pass fitf r0 = Ok r /\ r_z r = z /\ r_prior r = priors /\
    table r nT nR rows /\ length rows = length z /\
    forall k x w, nth_error z k = Some x -> nth_error rows k = Some w -> from_call (fitf k x) (repeat (Some dbl_max) nT) w.
Proof.
  intros HS Hp. destruct (init_spec z nT nR priors Hp) as (r0 & E0 & Z0 & P0 & T0).
  assert (L0 : length (repeat (no_row nT nR) (length z)) = length z) by apply repeat_length.
  destruct (first_loop_spec fitf nT nR HS (length (r_z r0)) 0 r0 _ T0) as (r1 & rows1 & E1 & Z1 & P1 & T1 & L1 & F1).
  { rewrite Z0, L0. reflexivity. } { rewrite Z0, L0. reflexivity. }
  { intros k w _ Hw. apply nth_error_In, repeat_spec in Hw. exact Hw. }
  { intros k x w Hk. lia. }
  exists r0, r1, rows1. split; [exact E0|]. split; [exact E1|]. split; [congruence|]. split; [congruence|].
  split; [exact T1|]. split; [congruence|]. rewrite <- Z0. exact F1.
Qed.

Lemma no_candidate fitf nT nR : (forall n x, shaped nT nR (fitf n x)) -> forall z priors, length priors = nR ->
  two_passes fitf z nT nR priors [] = Throw INTERNAL_ERROR.
Proof.
  intros HS z priors Hp. destruct (first_pass_spec fitf nT nR z priors HS Hp) as (r0 & r & rows & E0 & E1 & _).
  unfold two_passes. rewrite E0. cbn [rbind]. rewrite E1. reflexivity.
Qed.

Lemma matrix_len {A} (cols : list (list A)) n f rows c : matrix cols n f rows -> In c cols -> length c = length rows.
Proof.
  intros (_ & _ & H) Hc. destruct (In_nth_error _ _ Hc) as [j Hj]. specialize (H j c Hj).
  apply (f_equal (@length _)) in H. rewrite !map_length in H. exact H.
Qed.

Lemma getters_past r nT nR rows k : table r nT nR rows -> length (r_z r) = length rows -> (length rows <= k)%nat ->
  ((0 < nT)%nat -> getChisquareTplContinuumResult r k = Throw STD_out_of_range) /\
  ((0 < nR)%nat -> getChisquareTplratioResult r k = Throw STD_out_of_range) /\
  getScaleMargCorrTplratioResult r k = Ok [] /\ getStrongELPresentTplratioResult r k = Ok [] /\
  getHaELPresentTplratioResult r k = Ok [] /\ getNLinesAboveSNRTplratioResult r k = Ok [] /\
  getPriorLinesTplratioResult r k = Ok [].
Proof.
  intros (_ & _ & _ & _ & _ & _ & T7 & T8 & _) L Hk.
  assert (At : forall (cols : list (list flt)) n f, matrix cols n f rows -> (0 < n)%nat -> at_all cols k = Throw STD_out_of_range).
  { intros cols n f M Hn. pose proof (proj1 M) as Ln. destruct cols as [|c t]; [simpl in Ln; lia|].
    unfold at_all. cbn [mapr]. rewrite (proj2 (nth_error_None c k)); [reflexivity|].
    rewrite (matrix_len _ _ _ _ c M (or_introl eq_refl)). exact Hk. }
  assert (G : forall (A : Type) (cols : list (list A)), get_all (length (r_z r)) cols k = Ok []).
  { intros A cols. unfold get_all. rewrite (proj2 (Nat.leb_le _ _)); [reflexivity|]. rewrite L. exact Hk. }
  split; [intro; eapply At; eassumption|]. split; [intro; eapply At; eassumption|].
  repeat (split; [apply G|]). apply G.
Qed.

Lemma merits_lost fitf nT nR : (forall n x, shaped nT nR (fitf n x)) -> forall z priors cands,
  strictly_increasing z -> length priors = nR -> cands <> [] -> spaced z ->
  insertable_all (map snd cands) z -> apart (map snd cands) ->
  (forall Zc s, In (Zc, s) cands -> In Zc z /\ In Zc s) ->
  (forall c y, (length z <= c)%nat -> o_cont (fitf c y) = None) ->
  exists r, two_passes fitf z nT nR priors cands = Ok r /\
    forall k x s, nth_error (r_z r) k = Some x -> In s (map snd cands) -> replaced s x ->
      getChisquareTplContinuumResult r k = Ok (repeat (Some dbl_max) nT).
Proof.
  intros HS z priors cands H1 H2 H3 H4 H5 H6 H7 HN.
  destruct (two_passes_spec fitf nT nR HS z priors cands H1 H2 H3 H4 H5 H6 H7) as (r & grid & rows & E & _ & Zr & _ & T & Lr & F).
  exists r. split; [exact E|]. intros k x s Hx Hs Rx. rewrite Zr in Hx.
  assert (L : length (r_z r) = length rows) by (rewrite Zr; symmetry; exact Lr).
  destruct (nth_error_lt rows k) as [w Hw]; [rewrite Lr; eapply nth_error_len; eauto|].
  destruct (getters_spec r nT nR rows k w T L Hw) as (G & _). rewrite G.
  destruct (F k x w Hx Hw) as [(_ & c & Hc & FC)|(N & _)]; [|exfalso; exact (N s Hs Rx)].
  destruct FC as (_ & _ & _ & _ & _ & _ & C & _). rewrite C, (HN c x Hc). reflexivity.
Qed.

(** *** examples *)
Definition ex_fit (n : nat) (x : Q) : out :=
  mkOut (Some (inject_Z (Z.of_nat n))) [] None (Some 0) (if Nat.ltb n 4 then Some [Some 7] else None)
    (Some (mkRout [Some x] [Some 0] [true] [false] [1%Z] [Some 0])) (Some 0) (Some 0).
Definition ex_z : list Q := [0; 1; 2; 3].
Definition ex_cands : list (Q * list Q) := [(1, [(1#2); 1; (3#2)])].

Lemma ex_fit_shaped : forall n x, shaped 1 1 (ex_fit n x).
Proof.
  intros n x. split; [|cbn; repeat split; lia]. intros m. cbn [ex_fit o_cont]. destruct (Nat.ltb n 4); [|discriminate].
  intro K. injection K as <-. reflexivity.
Qed.

Ltac go_nth H := first [discriminate H | simpl in H; injection H as <- |  match type of H with nth_error _ ?i = Some _ =>
  destruct i as [|i]; [simpl in H; injection H as <-|simpl in H; first [exfalso; lia | go_nth H]] end].
Ltac case_nth H := let L := fresh "L" in pose proof (nth_error_len _ _ _ H) as L; simpl in L; go_nth H.
Ltac incr := intros i j a b Hij Ha Hb; case_nth Ha; case_nth Hb; try lia; lra.
Lemma replaced3 a b c x : replaced [a; b; c] x -> a - eps <= x /\ x <= c + eps.
Proof. intros (u & v & A & B & C & D). simpl in A, B. injection A as <-. injection B as <-. auto. Qed.
Lemma in_replaced3 a b c x : a - eps <= x -> x <= c + eps -> replaced [a; b; c] x.
Proof. intros H1 H2. exists a, c. repeat (split; [reflexivity|]). auto. Qed.

Ltac insb := match goal with |- insertable ?s ?z => idtac end; (split; [incr|]); (split; [incr|]); (split; [simpl; lia|]).
Lemma ex_ins : insertable [(1#2); 1; (3#2)] [0; 1; 2; 3].
Proof.
  insb. split; [exists 1; split; [simpl; auto|apply in_replaced3; unfold eps; lra]|]. split; [|split].
  - intros i j xi xj Hi Hj Ri Rj. apply replaced3 in Ri, Rj. unfold eps in *. case_nth Hi; case_nth Hj; try (simpl; lia); exfalso; lra.
  - intros k x zf Hk Hx Hz. simpl in Hz. injection Hz as <-. case_nth Hx; try lia; lra.
  - intros k x zb Hk Hx Hz. simpl in Hz, Hk. injection Hz as <-. case_nth Hx; try lia; lra.
Qed.
Lemma ex_ins2 : insertable [(5#4); 2; (5#2)] [0; (1#2); 1; (3#2); 2; 3].
Proof.
  insb. split; [exists 2; split; [simpl; auto 6|apply in_replaced3; unfold eps; lra]|]. split; [|split].
  - intros i j xi xj Hi Hj Ri Rj. apply replaced3 in Ri, Rj. unfold eps in *. case_nth Hi; case_nth Hj; try (simpl; lia); exfalso; lra.
  - intros k x zf Hk Hx Hz. simpl in Hz. injection Hz as <-. case_nth Hx; try lia; lra.
  - intros k x zb Hk Hx Hz. simpl in Hz, Hk. injection Hz as <-. case_nth Hx; try lia; lra.
Qed.
Lemma ex_si : strictly_increasing ex_z. Proof. unfold ex_z. incr. Qed.
Lemma ex_sp : spaced ex_z.
Proof. intros i x y Hx Hy. unfold ex_z, eps in *. case_nth Hx; case_nth Hy; try lra. Qed.

Lemma ex_hyps : strictly_increasing ex_z /\ spaced ex_z /\ insertable_all (map snd ex_cands) ex_z /\ apart (map snd ex_cands) /\
  (forall Zc s, In (Zc, s) ex_cands -> In Zc ex_z /\ In Zc s).
Proof.
  split; [exact ex_si|]. split; [exact ex_sp|]. split; [split; [exact ex_ins|intros; exact I]|]. split.
  - intros i j s t x Hij Hs Ht. simpl in Hs, Ht. destruct j as [|[|j]]; try lia; discriminate Ht.
  - intros Zc s [K|[]]. injection K as <- <-. simpl; auto.
Qed.

Lemma kept_refuted : ~ (forall fitf nT nR z priors cands r k x m,
  (forall n y, shaped nT nR (fitf n y)) -> strictly_increasing z -> length priors = nR -> spaced z ->
  insertable_all (map snd cands) z -> apart (map snd cands) -> (forall Zc s, In (Zc, s) cands -> In Zc z /\ In Zc s) ->
  (forall c y, (length z <= c)%nat -> o_cont (fitf c y) = None) ->
  two_passes fitf z nT nR priors cands = Ok r -> nth_error (r_z r) k = Some x ->
  (exists i, nth_error z i = Some x /\ o_cont (fitf i x) = Some m) -> getChisquareTplContinuumResult r k = Ok m).
Proof.
  intro H. destruct ex_hyps as (H1 & H2 & H3 & H4 & H5).
  assert (HN : forall c y, (length ex_z <= c)%nat -> o_cont (ex_fit c y) = None).
  { intros c y Hc. cbn [ex_fit o_cont]. rewrite (proj2 (Nat.ltb_ge _ _)); [reflexivity|exact Hc]. }
  destruct (merits_lost ex_fit 1 1 ex_fit_shaped ex_z [1] ex_cands H1 eq_refl ltac:(discriminate) H2 H3 H4 H5 HN) as (r & E & G).
  destruct (two_passes_spec ex_fit 1 1 ex_fit_shaped ex_z [1] ex_cands H1 eq_refl ltac:(discriminate) H2 H3 H4 H5) as (r' & grid & rows & E' & I' & Z' & _).
  assert (r' = r) by congruence. subst r'.
  assert (Hg : nth_error (r_z r) 2 = Some 1).
  { rewrite Z'. assert (Eg : insert_all (map snd ex_cands) ex_z = Ok [0; (1#2); 1; (3#2); 2; 3]) by (vm_compute; reflexivity).
    rewrite Eg in I'. injection I' as <-. reflexivity. }
  pose proof (H ex_fit 1%nat 1%nat ex_z [1] ex_cands r 2%nat 1 [Some 7] ex_fit_shaped H1 eq_refl H2 H3 H4 H5 HN E Hg
    ltac:(exists 1%nat; split; reflexivity)) as K.
  rewrite (G 2%nat 1 [(1#2); 1; (3#2)] Hg (or_introl eq_refl) ltac:(apply in_replaced3; unfold eps; lra)) in K.
  discriminate K.
Qed.

Definition ov_cands : list (Q * list Q) := [(1, [(1#2); 1; (3#2)]); (2, [(5#4); 2; (5#2)])].
Lemma overlap_refuted : ~ (forall fitf nT nR, (forall n x, shaped nT nR (fitf n x)) -> forall z priors cands,
  strictly_increasing z -> length priors = nR -> cands <> [] -> spaced z -> insertable_all (map snd cands) z ->
  (forall Zc s, In (Zc, s) cands -> In Zc z /\ In Zc s) -> exists r, two_passes fitf z nT nR priors cands = Ok r).
Proof.
  intro H. destruct (H ex_fit 1%nat 1%nat ex_fit_shaped ex_z [1] ov_cands) as [r E].
  - exact ex_si.
  - reflexivity.
  - discriminate.
  - exact ex_sp.
  - split; [exact ex_ins|]. intros i n s' z' K.
    assert (K0 : insertSubgrid [(1#2); 1; (3#2)] ex_z = Ok (1%nat, 1%nat, [(1#2); 1; (3#2)], [0; (1#2); 1; (3#2); 2; 3])) by reflexivity.
    cbn [snd] in K. rewrite K0 in K. injection K as <- <- <- <-. split; [exact ex_ins2|]. intros; exact I.
  - intros Zc s [K|[K|[]]]; injection K as <- <-; simpl; auto.
  - assert (K : two_passes ex_fit ex_z 1 1 [1] ov_cands = Throw INTERNAL_ERROR) by (vm_compute; reflexivity). congruence.
Qed.

Lemma reinit_refuted : ~ (forall r0 z1 nT1 nR1 p1 z2 nT2 p2 r1 r2 k, Init r0 z1 nT1 nR1 p1 = Ok r1 -> Init r1 z2 nT2 0 p2 = Ok r2 ->
  (k < length z2)%nat -> getHaELPresentTplratioResult r2 k = Ok []).
Proof.
  intro H. specialize (H empty_res [0] 0%nat 1%nat [1] [0; 1] 0%nat [] _ _ 1%nat eq_refl eq_refl ltac:(simpl; lia)).
  cbv in H. discriminate H.
Qed.
