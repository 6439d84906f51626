From Coq Require Import String Reals Lra Lia.
From Verif Require Import Base RdrModel RdrProofs RelyModel RelySpec.
Open Scope string_scope.
Open Scope R_scope.

Lemma exceeds_pos a b : 0 < b -> (exceeds a b = false <-> a <= tolerance * b).
Proof.
  intros B. unfold exceeds. destruct (Req_EM_T b 0) as [E | _]; [lra |].
  assert (H : a / b <= tolerance <-> a <= tolerance * b).
  { split; intros H.
    - replace a with (a / b * b) by (field; lra). apply Rmult_le_compat_r; lra.
    - apply (Rmult_le_reg_r b); [lra |]. replace (a / b * b) with a by (field; lra). exact H. }
  destruct (Rlt_dec tolerance (a / b)) as [L | L]; split; intros G; try discriminate; try reflexivity.
  - apply H in G. lra.
  - apply H. lra.
Qed.
Lemma report_fun cs : forall i probas d r c, NoDup cs -> report cs i probas d = Val r -> forall x,
  dget c r = Some x <-> (exists k, nth_error cs k = Some c /\ nth_error probas (i + k) = Some x) \/ (~ In c cs /\ dget c d = Some x).
Proof.
  induction cs as [| e t IH]; cbn [report]; intros i probas d r c N H x.
  - apply Val_inj in H. subst. split; [intros H; right; split; [intros [] | exact H] |].
    intros [(k & K & _) | [_ H]]; [destruct k; discriminate | exact H].
  - inversion N as [| ? ? N1 N2]; subst.
    destruct (nth_error probas i) as [y |] eqn:Y; [| discriminate].
    rewrite (IH _ _ _ _ c N2 H x), dget_put. split.
    + intros [(k & K1 & K2) | [K1 K2]].
      * left. exists (S k). split; [exact K1 |]. replace (i + S k)%nat with (S i + k)%nat by lia. exact K2.
      * destruct (String.eqb_spec c e) as [E | E].
        -- left. exists 0%nat. subst. split; [reflexivity |]. replace (i + 0)%nat with i by lia. congruence.
        -- right. split; [| exact K2]. intros [X | X]; [congruence | contradiction].
    + intros [(k & K1 & K2) | [K1 K2]].
      * destruct k as [| k].
        -- cbn in K1. injection K1 as K1. subst. right. split; [exact N1 |]. rewrite String.eqb_refl.
           replace (i + 0)%nat with i in K2 by lia. congruence.
        -- left. exists k. split; [exact K1 |]. replace (S i + k)%nat with (i + S k)%nat by lia. exact K2.
      * right. split; [intros X; apply K1; right; exact X |].
        destruct (String.eqb_spec c e) as [E | E]; [exfalso; apply K1; left; congruence |].
        exact K2.
Qed.
Lemma report_total cs : forall i probas d, (i + List.length cs <= List.length probas)%nat -> exists r, report cs i probas d = Val r.
Proof.
  induction cs as [| e t IH]; cbn [report]; intros i probas d L; [eexists; reflexivity |].
  cbn [List.length] in L. destruct (nth_error probas i) eqn:Y; [apply IH; lia |].
  apply nth_error_None in Y. lia.
Qed.
Lemma report_len cs : forall i probas d r, report cs i probas d = Val r -> cs = [] \/ (i + List.length cs <= List.length probas)%nat.
Proof.
  induction cs as [| e t IH]; cbn [report]; intros i probas d r H; [left; reflexivity |]. right.
  destruct (nth_error probas i) eqn:Y; [| discriminate]. assert (i < List.length probas)%nat by (apply nth_error_Some; congruence).
  apply IH in H. cbn [List.length]. destruct H as [-> | H]; cbn [List.length]; lia.
Qed.

Lemma two_last (zgrid : list R) : forall l a b, zgrid = (l ++ [a; b])%list -> rev zgrid = b :: a :: rev l.
Proof. intros l a b ->. rewrite rev_app_distr. reflexivity. Qed.
(** the tests on a grid with two last points *)
Lemma probas_of l a b zgrid pdfval model par : zgrid = (l ++ [a; b])%list -> -1 < a -> 0 < b ->
  get_probas zgrid pdfval model par =
    if negb (Nat.eqb (List.length pdfval) (n_input model)) then Err incompatible else
    if exceeds (b - zgrid_end par) b then Err incompatible else
    if exceeds (exp (zrange_step par) - (b + 1) / (a + 1)) ((b + 1) / (a + 1)) then Err incompatible
    else report (tl (classes par)) 1 (predict model (map exp pdfval)) [].
Proof.
  intros Z A B. unfold get_probas. rewrite (two_last _ _ _ _ Z).
  destruct (Nat.eqb _ _); cbn [negb]; [| reflexivity]. destruct (exceeds (b - zgrid_end par) b); [reflexivity |].
  destruct (Req_EM_T (a + 1) 0) as [E | _]; [lra |]. reflexivity.
Qed.
Lemma step_test s a b : -1 < a -> 0 < b -> (exceeds (s - (b + 1) / (a + 1)) ((b + 1) / (a + 1)) = false <-> s * (a + 1) - (b + 1) <= tolerance * (b + 1)).
Proof.
  intros A B. assert (P : 0 < (b + 1) / (a + 1)) by (apply Rdiv_lt_0_compat; lra).
  rewrite (exceeds_pos _ _ P). split; intros H.
  - apply (Rmult_le_compat_r (a + 1)) in H; [| lra].
    replace ((s - (b + 1) / (a + 1)) * (a + 1)) with (s * (a + 1) - (b + 1)) in H by (field; lra).
    replace (tolerance * ((b + 1) / (a + 1)) * (a + 1)) with (tolerance * (b + 1)) in H by (field; lra). exact H.
  - apply (Rmult_le_reg_r (a + 1)); [lra |].
    replace ((s - (b + 1) / (a + 1)) * (a + 1)) with (s * (a + 1) - (b + 1)) by (field; lra).
    replace (tolerance * ((b + 1) / (a + 1)) * (a + 1)) with (tolerance * (b + 1)) by (field; lra). exact H.
Qed.
Theorem probas_iff zgrid pdfval model par : redshifts zgrid ->
  ((exists d, get_probas zgrid pdfval model par = Val d) <->
   List.length pdfval = n_input model /\ fits zgrid par /\ ((List.length (classes par) <= 1)%nat \/ (List.length (classes par) <= List.length (predict model (map exp pdfval)))%nat)).
Proof.
  intros (l & a & b & Z & A & B). rewrite (probas_of _ _ _ _ _ _ _ Z A B). split.
  - intros [d H]. destruct (Nat.eqb_spec (List.length pdfval) (n_input model)) as [E | _]; cbn [negb] in H; [| discriminate].
    destruct (exceeds (b - zgrid_end par) b) eqn:X1; [discriminate |].
    destruct (exceeds (exp (zrange_step par) - (b + 1) / (a + 1)) ((b + 1) / (a + 1))) eqn:X2; [discriminate |].
    split; [exact E |]. split.
    + exists l, a, b. split; [exact Z |]. apply (proj1 (exceeds_pos _ _ B)) in X1. apply (proj1 (step_test _ _ _ A B)) in X2. unfold tolerance in X1, X2. split; lra.
    + apply report_len in H. destruct (classes par) as [| c t]; cbn [tl List.length] in *; [left; lia |]. destruct H as [-> | H]; [left; cbn; lia | right; lia].
  - intros (E & (l' & a' & b' & Z' & F1 & F2) & C).
    rewrite Z in Z'. assert (l = l' /\ a = a' /\ b = b') as (<- & <- & <-).
    { apply (f_equal (@rev R)) in Z'. rewrite !rev_app_distr in Z'. cbn in Z'. injection Z' as X Y W. apply (f_equal (@rev R)) in W. rewrite !rev_involutive in W. auto. }
    rewrite (proj2 (Nat.eqb_eq _ _) E). cbn [negb]. rewrite (proj2 (exceeds_pos _ _ B)), (proj2 (step_test _ _ _ A B)) by (unfold tolerance; lra).
    destruct (classes par) as [| c t] eqn:K; cbn [tl]; [eexists; reflexivity |]. cbn [List.length] in C.
    destruct C as [C | C]; [destruct t; [eexists; reflexivity | cbn in C; lia] |]. apply report_total. lia.
Qed.
Lemma probas_report zgrid pdfval model par d : get_probas zgrid pdfval model par = Val d ->
  report (tl (classes par)) 1 (predict model (map exp pdfval)) [] = Val d.
Proof.
  unfold get_probas. destruct (rev zgrid) as [| ze before]; [discriminate |].
  destruct (negb _); [discriminate |]. destruct (exceeds _ _); [discriminate |]. destruct before as [| zb l]; [discriminate |].
  destruct (negb _ && _); [discriminate | auto].
Qed.
Theorem probas_reported zgrid pdfval model par d c x : NoDup (tl (classes par)) -> get_probas zgrid pdfval model par = Val d ->
  (dget c d = Some x <-> probability_of (classes par) (predict model (map exp pdfval)) c x).
Proof.
  intros N H. apply probas_report in H. rewrite (report_fun _ _ _ _ _ c N H x). unfold probability_of.
  destruct (classes par) as [| e t]; cbn [tl]; split.
  - intros [(k & K & _) | [_ K]]; [destruct k; discriminate | discriminate].
  - intros (i & I1 & I2 & _). destruct i; discriminate.
  - intros [(k & K1 & K2) | [_ K]]; [| discriminate]. exists (S k). split; [lia |]. split; assumption.
  - intros (i & I1 & I2 & I3). left. destruct i as [| k]; [lia |]. exists k. split; assumption.
Qed.
Theorem probas_shape zgrid pdfval model par : zgrid <> [] -> List.length pdfval <> n_input model -> get_probas zgrid pdfval model par = Err incompatible.
Proof.
  intros Z E. unfold get_probas. destruct (rev zgrid) eqn:R.
  - exfalso. apply Z. apply (f_equal (@rev _)) in R. rewrite rev_involutive in R. exact R.
  - rewrite (proj2 (Nat.eqb_neq _ _) E). reflexivity.
Qed.
Theorem compute_success zgrid pdfval model par x : NoDup (tl (classes par)) -> compute zgrid pdfval model par = Val x ->
  probability_of (classes par) (predict model (map exp pdfval)) "success" x.
Proof.
  intros N H. unfold compute in H. apply pbind_inv in H. destruct H as (d & D & H).
  destruct (dget "success" d) as [y |] eqn:Y; [| discriminate]. apply Val_inj in H. subst.
  exact (proj1 (probas_reported _ _ _ _ _ _ _ N D) Y).
Qed.
Theorem compute_total zgrid pdfval model par : redshifts zgrid -> NoDup (tl (classes par)) -> List.length pdfval = n_input model -> fits zgrid par ->
  (List.length (classes par) <= List.length (predict model (map exp pdfval)))%nat -> In "success" (tl (classes par)) ->
  exists x, compute zgrid pdfval model par = Val x.
Proof.
  intros Z N E F C IN. destruct (proj2 (probas_iff zgrid pdfval model par Z)) as [d D]; [auto |].
  unfold compute. rewrite D. cbn [pbind].
  apply In_nth_error in IN. destruct IN as [k K].
  destruct (nth_error (predict model (map exp pdfval)) (S k)) as [x |] eqn:X.
  - rewrite (proj2 (probas_reported _ _ _ _ _ "success" x N D)); [eexists; reflexivity |]. exists (S k). split; [lia |]. split; [| exact X].
    destruct (classes par); [destruct k; discriminate | exact K].
  - exfalso. apply nth_error_None in X. assert (k < List.length (tl (classes par)))%nat by (apply nth_error_Some; congruence).
    destruct (classes par); cbn [tl List.length] in *; lia.
Qed.
(** a step twice and an end a hundred times away from the ones of the training *)
Theorem grid_refuted : exists zgrid pdfval model par, get_probas zgrid pdfval model par = Val [("success", 1)] /\
  zgrid = [0; 1] /\ zgrid_end par = 100 /\ exp (zrange_step par) = 1.
Proof.
  exists [0; 1], [0; 0], (mkNet 2 (fun _ => [0; 1])), (mkNetParams 100 0 ["failure"; "success"]).
  split; [| split; [reflexivity | split; [reflexivity | cbn; apply exp_0]]].
  rewrite (probas_of [] 0 1); [| reflexivity | lra | lra]. cbn [n_input List.length Nat.eqb negb zgrid_end zrange_step].
  rewrite (proj2 (exceeds_pos (1 - 100) 1 ltac:(lra))); [| unfold tolerance; lra].
  rewrite (proj2 (step_test (exp 0) 0 1 ltac:(lra) ltac:(lra))); [reflexivity | rewrite exp_0; unfold tolerance; lra].
Qed.

(** *** the checks of the file of the network *)
Theorem check_iff v s range solver_range step solver_step :
  check_model v s range solver_range step solver_step = Val tt <-> newer v s = false /\ solver_range = range /\ solver_step = step.
Proof.
  unfold check_model, same_list. destruct (newer v s); [split; [discriminate | intros (H & _); discriminate] |].
  destruct (list_eq_dec Req_EM_T solver_range range); cbn [negb]; [| split; [discriminate | intros (_ & H & _); contradiction]].
  destruct (Req_EM_T solver_step step); split; try discriminate; auto. intros (_ & _ & H). contradiction.
Qed.
Theorem newer_digits m s : (m < 10)%nat -> (s < 10)%nat -> (newer (digit m) (digit s) = true <-> (s < m)%nat).
Proof.
  intros M S'. assert (K : forallb (fun m => forallb (fun s => Bool.eqb (newer (digit m) (digit s)) (Nat.ltb s m)) (seq 0 10)) (seq 0 10) = true) by reflexivity.
  rewrite forallb_forall in K. specialize (K m ltac:(apply in_seq; lia)). cbv beta in K. rewrite forallb_forall in K. specialize (K s ltac:(apply in_seq; lia)).
  apply Bool.eqb_prop in K. rewrite K. apply Nat.ltb_lt.
Qed.
Theorem newer_refuted : newer "10" "9" = false /\ newer "9" "10" = true.
Proof. split; reflexivity. Qed.
