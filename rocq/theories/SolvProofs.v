(** Proofs for C74. *)
From Verif Require Import Base SolvModel SolvSpec.
Open Scope Q_scope.

(** number of steps s down to m, stopping at m *)
Definition rank (m s x : Q) : nat := Z.to_nat (Qceiling ((x - m) / s)).
Lemma Qceiling_step q : (Qceiling (q - 1) = Qceiling q - 1)%Z.
Proof. unfold Qceiling. assert (E : - (q - 1) == - q + inject_Z 1) by (change (inject_Z 1) with 1; ring). rewrite E. assert (forall a b, (Qfloor (a + inject_Z b) = Qfloor a + b)%Z) as ->; [|lia]. intros [n d] b. unfold Qfloor, Qplus, inject_Z. cbn. rewrite !Z.mul_1_r, Pos.mul_1_r. apply Z.div_add. discriminate. Qed.
Lemma rank_step m s x y : 0 < s -> m < x -> y == m \/ y == x - s -> (rank m s y < rank m s x)%nat.
Proof.
  intros S0 L [E|E]; unfold rank.
  - assert (Z : (y - m) / s == 0) by (rewrite E; field; lra). rewrite Z. change (Z.to_nat (Qceiling 0)) with 0%nat. assert (P : 0 < (x - m) / s) by (apply Qlt_shift_div_l; lra). pose proof (Qle_ceiling ((x - m) / s)) as C. assert (0 < inject_Z (Qceiling ((x - m) / s))) as K by lra. change 0 with (inject_Z 0) in K. rewrite <- Zlt_Qlt in K. lia.
  - assert (Z : (y - m) / s == (x - m) / s - 1) by (rewrite E; field; lra). rewrite Z, Qceiling_step. assert (P : 0 < (x - m) / s) by (apply Qlt_shift_div_l; lra). pose proof (Qle_ceiling ((x - m) / s)) as C. assert (0 < inject_Z (Qceiling ((x - m) / s))) as K by lra. change 0 with (inject_Z 0) in K. rewrite <- Zlt_Qlt in K. lia.
Qed.
Lemma run_S dy de ma : forall n st, run dy de ma (S n) st = (do r <- run dy de ma n st; match r with inl st' => step dy de ma st' | inr e => Ok (inr e) end).
Proof.
  induction n as [|n IH]; intros st.
  - cbn [run rbind]. destruct (step dy de ma st) as [[x|e]| |]; reflexivity.
  - change (run dy de ma (S (S n)) st) with (do r <- step dy de ma st; match r with inl st' => run dy de ma (S n) st' | inr e => Ok (inr e) end). cbn [run].
    destruct (step dy de ma st) as [[x|e]| |]; cbn [rbind]; [apply IH|reflexivity|reflexivity|reflexivity].
Qed.
Lemma run_add dy de ma : forall a b st, run dy de ma (a + b) st = (do r <- run dy de ma a st; match r with inl st' => run dy de ma b st' | inr e => Ok (inr e) end).
Proof. induction a as [|a IH]; intros b st; cbn [run Nat.add rbind]; [reflexivity|]. destruct (step dy de ma st) as [[x|e]| |]; cbn [rbind]; [apply IH|reflexivity|reflexivity|reflexivity]. Qed.

Section S.
Variables (de : params -> res Z) (ma : params -> res bool).
(** what a turn can do *)
Lemma step_inl dy st st' : step dy de ma st = Ok (inl st') ->
  dy = true /\ icmpt st' = icmpt st /\ exists n, de (cur st) = Ok n /\ ((200 <= n)%Z \/ bypass st = true -> ma (cur st) = Ok false) /\ ~ ((n < prev st)%Z /\ newv st = false) /\ prev st' = n /\
    nbest st' = Z.max (nbest st) n /\ best st' = (if (nbest st <=? n)%Z then cur st else best st) /\
    match vary (cur st) with Some (p, nv) => cur st' = p /\ newv st' = nv /\ bypass st' = bypass st | None => cur st' = best st' /\ newv st' = true /\ bypass st' = true end.
Proof.
  unfold step. destruct (icmpt st <? cmptMax)%Z; [|discriminate]. destruct (de (cur st)) as [n| |]; cbn [rbind]; try discriminate.
  assert (U : forall f : (200 <= n)%Z \/ bypass st = true -> ma (cur st) = Ok false, update dy st n = Ok (inl st') -> dy = true /\ icmpt st' = icmpt st /\ exists n', Ok n = Ok n' /\ ((200 <= n')%Z \/ bypass st = true -> ma (cur st) = Ok false) /\ ~ ((n' < prev st)%Z /\ newv st = false) /\ prev st' = n' /\
    nbest st' = Z.max (nbest st) n' /\ best st' = (if (nbest st <=? n')%Z then cur st else best st) /\
    match vary (cur st) with Some (p, nv) => cur st' = p /\ newv st' = nv /\ bypass st' = bypass st | None => cur st' = best st' /\ newv st' = true /\ bypass st' = true end).
  { intros f H. unfold update in H. cbv zeta in H. destruct ((n <? prev st)%Z && negb (newv st))%bool eqn:T; [discriminate|]. destruct dy; cbn [negb] in H; [|discriminate]. split; [reflexivity|].
    assert (NT : ~ ((n < prev st)%Z /\ newv st = false)) by (intros (A & B); apply Z.ltb_lt in A; rewrite A, B in T; discriminate).
    assert (NB : (if (nbest st <=? n)%Z then n else nbest st) = Z.max (nbest st) n) by (destruct (Z.leb_spec (nbest st) n); lia).
    destruct (vary (cur st)) as [(p, nv)|]; inversion H; subst; cbn; (split; [reflexivity|]); exists n; (split; [reflexivity|]); (split; [exact f|]); auto 10. }
  destruct ((200 <=? n)%Z || bypass st || negb dy)%bool eqn:G.
  - destruct (ma (cur st)) as [f| |] eqn:M; cbn [rbind]; try discriminate. destruct f; [discriminate|]. destruct (negb dy) eqn:D; [discriminate|]. intros H. apply U in H; auto.
  - intros H. apply U in H; [exact H|]. intros X. exfalso. apply orb_false_iff in G. destruct G as (G & _). apply orb_false_iff in G. destruct G as (G1 & G2). apply Z.leb_gt in G1. destruct X as [X|X]; [lia|congruence].
Qed.
Lemma step_found dy st : step dy de ma st = Ok (inr Found) -> exists n, de (cur st) = Ok n /\ ma (cur st) = Ok true /\ ((200 <= n)%Z \/ bypass st = true \/ dy = false).
Proof.
  unfold step. destruct (icmpt st <? cmptMax)%Z; [|discriminate]. destruct (de (cur st)) as [n| |]; cbn [rbind]; try discriminate.
  assert (U : update dy st n <> Ok (inr Found)) by (unfold update; cbv zeta; destruct (_ && _)%bool; [discriminate|]; destruct (negb dy); [discriminate|]; destruct (vary (cur st)) as [(p, nv)|]; discriminate).
  destruct ((200 <=? n)%Z || bypass st || negb dy)%bool eqn:G; [|intros H; contradiction].
  destruct (ma (cur st)) as [f| |] eqn:M; cbn [rbind]; try discriminate. destruct f; [|destruct (negb dy); [discriminate|intros H; contradiction]]. intros _. exists n. split; [reflexivity|]. split; [reflexivity|].
  apply orb_true_iff in G. destruct G as [G|G]; [apply orb_true_iff in G; destruct G as [G|G]; [left; apply Z.leb_le; exact G|right; left; exact G]|right; right; destruct dy; [discriminate|reflexivity]].
Qed.
Lemma step_ending dy st e : step dy de ma st = Ok (inr e) -> (e = Found \/ (e = Nothing /\ dy = false)) \/ (e = Limit /\ (cmptMax <= icmpt st)%Z).
Proof.
  unfold step. destruct (Z.ltb_spec (icmpt st) cmptMax) as [L|L]; [|intros H; inversion H; auto]. destruct (de (cur st)) as [n| |]; cbn [rbind]; try discriminate.
  assert (U : forall e, update dy st n <> Ok (inr e)) by (intros e'; unfold update; cbv zeta; destruct (_ && _)%bool; [discriminate|]; destruct (negb dy); [discriminate|]; destruct (vary (cur st)) as [(p, nv)|]; discriminate).
  destruct (_ || _ || _)%bool; [|intros H; destruct (U _ H)].
  destruct (ma (cur st)) as [f| |]; cbn [rbind]; try discriminate. destruct f; [intros H; inversion H; auto|]. destruct (negb dy) eqn:D; [intros H; inversion H; left; right; split; [reflexivity|destruct dy; [discriminate|reflexivity]]|intros H; destruct (U _ H)].
Qed.
Lemma icmpt_zero dy p0 n st : loop dy de ma p0 n = Ok (inl st) -> icmpt st = 0%Z.
Proof.
  revert st. induction n as [|n IH]; intros st H; [inversion H; reflexivity|]. unfold loop in *. rewrite run_S in H. destruct (run dy de ma n (start p0)) as [[s|e]| |]; cbn [rbind] in H; try discriminate.
  apply step_inl in H. destruct H as (_ & -> & _). apply IH. reflexivity.
Qed.
Lemma loop_S dy p0 n st : loop dy de ma p0 n = Ok (inl st) -> loop dy de ma p0 (S n) = step dy de ma st.
Proof. unfold loop. intros H. rewrite run_S, H. reflexivity. Qed.
Lemma loop_pred dy p0 n st : loop dy de ma p0 (S n) = Ok (inl st) -> exists s, loop dy de ma p0 n = Ok (inl s) /\ step dy de ma s = Ok (inl st).
Proof. unfold loop. rewrite run_S. destruct (run dy de ma n (start p0)) as [[s|e]| |]; cbn [rbind]; try discriminate. intros H. exists s. auto. Qed.
Lemma loop_before dy p0 : forall n k st, loop dy de ma p0 n = Ok (inl st) -> (k <= n)%nat -> exists s, loop dy de ma p0 k = Ok (inl s).
Proof. induction n as [|n IH]; intros k st H L; [assert (k = 0%nat) as -> by lia; eauto|]. destruct (Nat.eq_dec k (S n)) as [->|N]; [eauto|]. apply loop_pred in H. destruct H as (s & H & _). apply (IH k s H). lia. Qed.
Lemma bypass_mono dy p0 : forall n k st s, loop dy de ma p0 n = Ok (inl st) -> loop dy de ma p0 k = Ok (inl s) -> (k <= n)%nat -> bypass s = true -> bypass st = true.
Proof.
  induction n as [|n IH]; intros k st s H K L B; [assert (k = 0%nat) as -> by lia; congruence|]. destruct (Nat.eq_dec k (S n)) as [->|N]; [congruence|]. apply loop_pred in H. destruct H as (s' & H & T).
  assert (B' : bypass s' = true) by (apply (IH k s' s H K); [lia|exact B]). apply step_inl in T. destruct T as (_ & _ & m & _ & _ & _ & _ & _ & _ & V). destruct (vary (cur s')) as [(p, nv)|]; [destruct V as (_ & _ & ->); exact B'|apply V].
Qed.

(** ** one detection only *)
Lemma single p0 : step false de ma (start p0) = (do _ <- de p0; do f <- ma p0; Ok (inr (if (f : bool) then Found else Nothing))).
Proof. unfold step. cbn [icmpt start cur bypass]. change (0 <? cmptMax)%Z with true. cbv iota. destruct (de p0) as [n| |]; cbn [rbind]; [|reflexivity|reflexivity]. rewrite orb_true_r. destruct (ma p0) as [[|]| |]; reflexivity. Qed.

(** ** the best values *)
Definition inv dy p0 (n : nat) (st : search) : Prop :=
  (n = 0%nat /\ best st = p0 /\ nbest st = (-1)%Z) \/
  (last_best dy de ma p0 n (best st) /\ de (best st) = Ok (nbest st)).
Lemma inv_hold dy p0 : (forall p n, de p = Ok n -> (0 <= n)%Z) -> forall n st, loop dy de ma p0 n = Ok (inl st) -> inv dy p0 n st.
Proof.
  intros NN. induction n as [|n IH]; intros st H; [left; inversion H; auto|]. apply loop_pred in H. destruct H as (s & H & T). pose proof (IH s H) as J. apply step_inl in T. destruct T as (_ & _ & m & D & _ & _ & _ & NB & B & _).
  right. assert (TR : tried dy de ma p0 n (cur s)) by (exists s; auto).
  assert (FUN : forall q, tried dy de ma p0 n q -> q = cur s) by (intros q (s' & E & <-); congruence).
  pose proof (NN _ _ D) as P. destruct (Z.leb_spec (nbest s) m) as [L|L].
  - rewrite B. split; [|rewrite D; f_equal; lia]. exists n, m. split; [lia|]. split; [exact TR|]. split; [exact D|]. intros i q d I0 T E. destruct (Nat.eq_dec i n) as [->|N]; [apply FUN in T; subst q; split; [assert (d = m) by congruence; lia|lia]|].
    split; [|lia]. destruct J as [(-> & _)|((k & c & K & TK & EK & A) & EB)]; [lia|]. assert (LL : (i < n)%nat) by lia. destruct (A i q d LL T E) as (X & _). assert (c = nbest s) by congruence. lia.
  - rewrite B. destruct J as [(-> & E1 & E2)|((k & c & K & TK & EK & A) & EB)]; [lia|]. split; [|rewrite EB; f_equal; lia]. exists k, c. split; [lia|]. split; [exact TK|]. split; [exact EK|]. intros i q d I0 T E. assert (c = nbest s) by congruence. destruct (Nat.eq_dec i n) as [->|N]; [apply FUN in T; subst q; assert (d = m) by congruence; lia|].
    assert (LL : (i < n)%nat) by lia. apply (A i q d LL T E).
Qed.
Lemma best_used dy p0 n : (forall p n, de p = Ok n -> (0 <= n)%Z) -> ~ exhausted dy de ma p0 n -> exhausted dy de ma p0 (S n) -> exists p, tried dy de ma p0 (S n) p /\ last_best dy de ma p0 (S n) p.
Proof.
  intros NN N (st & H & B). exists (cur st). split; [exists st; auto|]. destruct (inv_hold dy p0 NN (S n) st H) as [(X & _)|(J & _)]; [discriminate|]. apply loop_pred in H. destruct H as (s & H & T).
  assert (BS : bypass s = false) by (apply not_true_is_false; intros X; apply N; exists s; auto). apply step_inl in T. destruct T as (_ & _ & m & _ & _ & _ & _ & _ & _ & V). destruct (vary (cur s)) as [(p, nv)|]; [destruct V as (_ & _ & V); congruence|]. destruct V as (-> & _). exact J.
Qed.

(** ** the search of the values ends *)
Definition settles (st : search) : Prop := exists n, match run true de ma n st with Ok (inl s) => bypass s = true | _ => True end.
Lemma settles_step st : (forall s, step true de ma st = Ok (inl s) -> settles s) -> settles st.
Proof.
  intros H. destruct (step true de ma st) as [[s|e]| |] eqn:E; [|exists 1%nat; cbn [run]; rewrite E; exact I|exists 1%nat; cbn [run]; rewrite E; exact I|exists 1%nat; cbn [run]; rewrite E; exact I].
  destruct (H s eq_refl) as (n & N). exists (S n). cbn [run]. rewrite E. exact N.
Qed.
Lemma settles_vary st : (forall p nv, vary (cur st) = Some (p, nv) -> forall s, cur s = p -> settles s) -> settles st.
Proof.
  intros H. apply settles_step. intros s T. apply step_inl in T. destruct T as (_ & _ & m & _ & _ & _ & _ & _ & _ & V). destruct (vary (cur st)) as [(p, nv)|] eqn:E; [apply (H p nv eq_refl); apply V|]. exists 0%nat. apply V.
Qed.
Lemma qmax_cases a b : qmax a b == a \/ qmax a b == b.
Proof. unfold qmax. destruct (Qltb a b); [right|left]; reflexivity. Qed.
(** windows from above: the opposite values go down *)
Definition rw (p : params) : nat := rank (- (winMaximum + 1)) winStep (- p_win p).
Definition rs (p : params) : nat := rank strongMinimum strongStep (p_strong p).
Definition rc (p : params) : nat := rank 0 cutStep (p_cut p).
Definition rf (p : params) : nat := rank fwhhMinimum fwhhStep (p_fwhh p).
Lemma vary_rank p q nv : vary p = Some (q, nv) -> (rw q < rw p)%nat \/ rw q = rw p /\ ((rs q < rs p)%nat \/ rs q = rs p /\ ((rc q < rc p)%nat \/ rc q = rc p /\ (rf q < rf p)%nat)).
Proof.
  unfold vary. destruct (Qltb_spec fwhhMinimum (p_fwhh p)) as [F|F].
  - intros H. inversion H; subst. right. split; [reflexivity|]. right. split; [reflexivity|]. right. split; [reflexivity|]. unfold rf. cbn [p_fwhh]. apply rank_step; [reflexivity|exact F|]. destruct (qmax_cases fwhhMinimum (p_fwhh p - fwhhStep)); auto.
  - destruct (Qle_bool cutMinimum (p_cut p)) eqn:C.
    + intros H. inversion H; subst. right. split; [reflexivity|]. right. split; [reflexivity|]. left. unfold rc. cbn [p_cut]. apply rank_step; [reflexivity|apply Qle_bool_iff in C; unfold cutMinimum in C; lra|right; reflexivity].
    + destruct (Qltb_spec strongMinimum (p_strong p)) as [G|G].
      * intros H. inversion H; subst. right. split; [reflexivity|]. left. unfold rs. cbn [p_strong]. apply rank_step; [reflexivity|exact G|]. destruct (qmax_cases strongMinimum (p_strong p - strongStep)); auto.
      * destruct (Qle_bool (p_win p) winMaximum) eqn:W; [|discriminate]. intros H. inversion H; subst. left. unfold rw. cbn [p_win]. apply rank_step; [reflexivity|apply Qle_bool_iff in W; lra|right; ring].
Qed.
Lemma settles_all : forall st, settles st.
Proof.
  enough (H : forall a b c d st, rw (cur st) = a -> rs (cur st) = b -> rc (cur st) = c -> rf (cur st) = d -> settles st) by (intros st; eapply H; reflexivity).
  induction a as [a IA] using lt_wf_ind. induction b as [b IB] using lt_wf_ind. induction c as [c IC] using lt_wf_ind. induction d as [d ID] using lt_wf_ind. intros st <- <- <- <-.
  apply settles_vary. intros p nv V s E. subst p. apply vary_rank in V. destruct V as [V|(V1 & [V|(V2 & [V|(V3 & V)])])].
  - eapply IA; [exact V|reflexivity..].
  - eapply IB; [exact V|exact V1|reflexivity..].
  - eapply IC; [exact V|exact V1|exact V2|reflexivity..].
  - eapply ID; [exact V|exact V1|exact V2|exact V3|reflexivity].
Qed.
Lemma settled p0 : exists n, (exists st, loop true de ma p0 n = Ok (inl st) /\ bypass st = true) \/ (exists e, loop true de ma p0 n = Ok (inr e)) \/ (exists e, loop true de ma p0 n = Throw e) \/ loop true de ma p0 n = UB.
Proof. destruct (settles_all (start p0)) as (n & N). exists n. unfold loop. destruct (run true de ma n (start p0)) as [[st|e]|e|]; eauto 6. Qed.

(** ** it never ends without a solution *)
Lemma endings dy p0 n e : loop dy de ma p0 n = Ok (inr e) -> exists i st, (i < n)%nat /\ loop dy de ma p0 i = Ok (inl st) /\ step dy de ma st = Ok (inr e).
Proof.
  induction n as [|n IH]; [discriminate|]. intros H. unfold loop in H. rewrite run_S in H. fold (loop dy de ma p0 n) in H. destruct (loop dy de ma p0 n) as [[s|e']| |] eqn:E; cbn [rbind] in H; try discriminate.
  - exists n, s. split; [lia|]. split; [exact E|exact H].
  - destruct (IH H) as (i & st & L & X). exists i, st. split; [lia|exact X].
Qed.
Lemma no_limit dy p0 n : loop dy de ma p0 n <> Ok (inr Limit).
Proof. intros H. destruct (endings _ _ _ _ H) as (i & st & _ & L & T). apply step_ending in T. pose proof (icmpt_zero _ _ _ _ L) as Z0. destruct T as [[T|(T & _)]|(_ & T)]; [discriminate|discriminate|]. unfold cmptMax in T. lia. Qed.
Lemma vary_fwhh p q : vary p = Some (q, false) -> p_cut q = p_cut p /\ p_strong q = p_strong p /\ p_win q = p_win p /\ p_fwhh q <= p_fwhh p.
Proof.
  unfold vary. destruct (Qltb_spec fwhhMinimum (p_fwhh p)) as [F|F]; [|destruct (Qle_bool cutMinimum (p_cut p)); [discriminate|]; destruct (Qltb strongMinimum (p_strong p)); [discriminate|]; destruct (Qle_bool (p_win p) winMaximum); discriminate].
  intros H. inversion H; subst. cbn. split; [reflexivity|]. split; [reflexivity|]. split; [reflexivity|]. assert (0 < fwhhStep) by reflexivity. destruct (qmax_cases fwhhMinimum (p_fwhh p - fwhhStep)) as [->| ->]; lra.
Qed.
Lemma never_ends p0 : (forall p, exists n, de p = Ok n /\ (0 <= n)%Z) -> (forall c g w f f' a b, f' <= f -> de (mkPar c g w f) = Ok a -> de (mkPar c g w f') = Ok b -> (a <= b)%Z) -> (forall p, ma p = Ok false) -> forall n, exists st, loop true de ma p0 n = Ok (inl st).
Proof.
  intros D MO M. enough (H : forall n, exists st, loop true de ma p0 n = Ok (inl st) /\ (newv st = true \/ forall c, de (cur st) = Ok c -> (prev st <= c)%Z)) by (intros n; destruct (H n) as (st & A & _); eauto).
  induction n as [|n (st & L & P)].
  { exists (start p0). split; [reflexivity|right]. intros c C. cbn in *. destruct (D p0) as (c' & C' & G). assert (c = c') by congruence. lia. }
  rewrite (loop_S _ _ _ _ L). unfold step. rewrite (icmpt_zero _ _ _ _ L). change (0 <? cmptMax)%Z with true. cbv iota. destruct (D (cur st)) as (c & C & G). rewrite C. cbn [rbind]. rewrite M. cbn [rbind negb].
  assert (U : forall b : bool, (if b then update true st c else update true st c) = update true st c) by (intros []; reflexivity). rewrite U. unfold update. cbv zeta. cbn [negb].
  destruct ((c <? prev st)%Z && negb (newv st))%bool eqn:F.
  { exfalso. apply andb_true_iff in F. destruct F as (F1 & F2). apply Z.ltb_lt in F1. destruct P as [P|P]; [rewrite P in F2; discriminate|]. pose proof (P c C). lia. }
  destruct (vary (cur st)) as [(p, nv)|] eqn:V; eexists; (split; [reflexivity|]); cbn [newv cur prev]; [|left; reflexivity]. destruct nv; [left; reflexivity|right]. intros c' C'. apply vary_fwhh in V. destruct V as (V1 & V2 & V3 & V4).
  destruct p as [pc pg pw pf]. destruct (cur st) as [qc qg qw qf]. cbn in V1, V2, V3, V4. subst. eapply MO; eassumption.
Qed.
(** ** the first qualifying parameters *)
Lemma ends dy p0 i p : ends_at dy de ma p0 i p -> exists n, de p = Ok n /\ ma p = Ok true /\ ((200 <= n)%Z \/ exhausted dy de ma p0 i \/ dy = false) /\
  forall j q m, (j < i)%nat -> tried dy de ma p0 j q -> de q = Ok m -> ((200 <= m)%Z \/ exhausted dy de ma p0 j) -> ma q = Ok false.
Proof.
  intros ((st & L & <-) & E). rewrite (loop_S _ _ _ _ L) in E. apply step_found in E. destruct E as (n & D & M & Q0). exists n. split; [exact D|]. split; [exact M|]. split.
  { destruct Q0 as [Q0|[Q0|Q0]]; [left; exact Q0|right; left; exists st; auto|right; right; exact Q0]. }
  intros j q m J (s & LJ & <-) DQ X. destruct (loop_before _ _ _ (S j) _ L J) as (s' & LS). rewrite (loop_S _ _ _ _ LJ) in LS. apply step_inl in LS. destruct LS as (_ & _ & n' & D' & F & _). apply F. assert (n' = m) by congruence. subst n'.
  destruct X as [X|(s2 & L2 & B2)]; [left; exact X|right; congruence].
Qed.
Lemma throws dy p0 n e : loop dy de ma p0 n = Throw e -> (forall p n, de p = Ok n -> (0 <= n)%Z) -> (forall p k, de p <> Throw k) -> (forall p k, ma p <> Throw k) -> dy = true /\ e = INTERNAL_ERROR /\
  exists i p q a b, (S i < n)%nat /\ tried dy de ma p0 i p /\ tried dy de ma p0 (S i) q /\ de p = Ok a /\ de q = Ok b /\ (b < a)%Z /\ vary p = Some (q, false).
Proof.
  intros H NN ND NM. induction n as [|n IH]; [discriminate|]. unfold loop in H. rewrite run_S in H. fold (loop dy de ma p0 n) in H. destruct (loop dy de ma p0 n) as [[s|e']|e'|] eqn:L; cbn [rbind] in H; try discriminate.
  2: { destruct (IH H) as (A & B & i & p & q & a & b & I0 & X). split; [exact A|]. split; [exact B|]. exists i, p, q, a, b. split; [lia|exact X]. }
  assert (DY : dy = true).
  { destruct n as [|n]; [|apply loop_pred in L; destruct L as (s0 & _ & T); apply step_inl in T; apply T]. inversion L; subst. destruct dy; [reflexivity|]. rewrite single in H. destruct (de p0) eqn:D0; cbn [rbind] in H; [|destruct (ND p0 _ D0)|discriminate]. destruct (ma p0) eqn:M0; cbn [rbind] in H; [discriminate|destruct (NM p0 _ M0)|discriminate]. }
  split; [exact DY|]. subst dy. unfold step in H. destruct (icmpt s <? cmptMax)%Z; [|discriminate]. destruct (de (cur s)) as [b| |] eqn:D; cbn [rbind] in H; [|inversion H; subst; destruct (ND _ _ D)|discriminate].
  assert (U : update true s b = Throw e).
  { destruct (_ || _ || _)%bool; [|exact H]. destruct (ma (cur s)) as [f| |] eqn:M; cbn [rbind] in H; [|inversion H; subst; destruct (NM _ _ M)|discriminate]. destruct f; [discriminate|]. exact H. }
  unfold update in U. cbv zeta in U. cbn [negb] in U. destruct ((b <? prev s)%Z && negb (newv s))%bool eqn:F; [|destruct (vary (cur s)) as [(p, nv)|]; discriminate]. split; [congruence|].
  apply andb_true_iff in F. destruct F as (F1 & F2). apply Z.ltb_lt in F1. apply negb_true_iff in F2.
  destruct n as [|n].
  { exfalso. inversion L; subst. cbn in F1, D. pose proof (NN _ _ D). lia. }
  pose proof L as L0. apply loop_pred in L. destruct L as (s0 & L & T). apply step_inl in T. destruct T as (_ & _ & a & A & _ & _ & P & _ & _ & V). destruct (vary (cur s0)) as [(p, nv)|] eqn:VV; [|destruct V as (_ & V & _); congruence]. destruct V as (V1 & V2 & _).
  exists n, (cur s0), (cur s), a, b. split; [lia|]. split; [exists s0; auto|]. split; [exists s; auto|]. split; [exact A|]. split; [exact D|]. split; [lia|]. rewrite VV. congruence.
Qed.
(** ** the values tried *)
Lemma vary_range p0 p q nv : in_range p0 p -> vary p = Some (q, nv) -> in_range p0 q.
Proof.
  unfold in_range, vary. destruct p0 as [c0 g0 w0 f0], p as [c g w f]. cbn [p_cut p_strong p_win p_fwhh]. intros ((C1 & C2) & (G1 & G2) & (W1 & W2) & (F1 & F2)).
  pose proof (Q.le_max_r f0 10) as M1. pose proof (Q.le_min_r f0 (1 # 1000)) as M2. pose proof (Q.le_max_r g0 10) as M3. pose proof (Q.le_min_r g0 (1 # 100)) as M4.
  pose proof (Q.le_max_r c0 (Qmax g0 10)) as M5. pose proof (Q.le_min_r c0 (Qmin g0 (-188 # 100))) as M6. pose proof (Q.le_min_r g0 (-188 # 100)) as M7. pose proof (Q.le_min_l g0 (-188 # 100)) as M9. pose proof (Q.le_max_r w0 11800) as M8.
  assert (X9 : Qmin g0 (-188 # 100) <= Qmin g0 (1 # 100)) by (apply Q.min_glb; lra).
  assert (E1 : fwhhMinimum = 1 # 1000) by reflexivity. assert (E2 : cutStep == 198 # 100) by reflexivity. assert (E3 : cutMinimum = 1 # 10) by reflexivity. assert (E4 : strongMinimum = 1 # 100) by reflexivity.
  assert (E5 : winStep == 1800) by reflexivity. assert (E6 : winMaximum = 10000) by reflexivity. assert (E7 : fwhhMaximum = 10) by reflexivity. assert (E8 : strongMaximum = 10) by reflexivity. assert (E9 : 0 < fwhhStep) by reflexivity. assert (E10 : 0 < strongStep) by reflexivity.
  rewrite E1, E3, E4, E6, E7, E8.
  destruct (Qltb_spec (1 # 1000) f) as [F|F].
  - intros H. inversion H; subst. cbn [p_cut p_strong p_win p_fwhh]. repeat match goal with |- _ /\ _ => split end; try assumption; unfold qmax; rewrite ?E1; destruct (Qltb_spec (1 # 1000) (f - fwhhStep)); lra.
  - destruct (Qle_bool (1 # 10) c) eqn:C.
    + apply Qle_bool_iff in C. intros H. inversion H; subst. cbn [p_cut p_strong p_win p_fwhh]. repeat match goal with |- _ /\ _ => split end; try assumption; lra.
    + destruct (Qltb_spec (1 # 100) g) as [G|G].
      * intros H. inversion H; subst. cbn [p_cut p_strong p_win p_fwhh]. repeat match goal with |- _ /\ _ => split end; try assumption; try lra; unfold qmax; destruct (Qltb_spec (1 # 100) (g - strongStep)); lra.
      * destruct (Qle_bool w 10000) eqn:W; [|discriminate]. apply Qle_bool_iff in W. intros H. inversion H; subst. cbn [p_cut p_strong p_win p_fwhh]. repeat match goal with |- _ /\ _ => split end; try lra.
Qed.
Lemma start_range p0 : in_range p0 p0.
Proof. unfold in_range. split; [|split; [|split]]; split; try apply Q.le_min_l; try apply Q.le_max_l. apply Qle_refl. Qed.
Lemma ranges dy p0 i p : tried dy de ma p0 i p -> in_range p0 p.
Proof.
  intros (st & L & <-). enough (H : in_range p0 (cur st) /\ in_range p0 (best st)) by apply H. revert st L. induction i as [|i IH]; intros st L; [inversion L; subst; cbn; split; apply start_range|].
  apply loop_pred in L. destruct L as (s & L & T). destruct (IH s L) as (A & B). apply step_inl in T. destruct T as (_ & _ & m & _ & _ & _ & _ & _ & E & V).
  assert (BB : in_range p0 (best st)) by (rewrite E; destruct (nbest s <=? m)%Z; assumption). split; [|exact BB]. destruct (vary (cur s)) as [(q, nv)|] eqn:VV; [destruct V as (-> & _); exact (vary_range _ _ _ _ A VV)|destruct V as (-> & _); exact BB].
Qed.
End S.
