(** Proofs for C73. *)
From Coq Require Import String.
From Verif Require Import Base F64 RangeModel AxisSpec AxisModel RulesModel RulesProofs MatchModel MatchSpec MatchProofs MatchProofs2 DetModel DetSpec DetProofs CrulModel CrulSpec.
Open Scope Q_scope.

Lemma filter_rest_strong r l : In r (filter_rest (Some true) (Some true) l) <-> In r l /\ r_em r = true /\ r_strong r = true.
Proof. unfold filter_rest. rewrite filter_In, andb_true_iff, !keeps_spec. split; intros (A & B & C); (split; [exact A|]); [split; [apply B|apply C]; reflexivity|]. split; intros c E; inversion E; subst; assumption. Qed.
Lemma flt_irrefl a : flt a a = false.
Proof. destruct a as [| | |q]; try reflexivity. cbn. destruct (Qltb_spec q q) as [L|L]; [lra|reflexivity]. Qed.
Lemma flt_trans a b c : flt a b = true -> flt b c = true -> flt a c = true.
Proof. destruct a as [| | |x], b as [| | |y], c as [| | |z]; cbn; try discriminate; auto. rewrite !Qltb_true. intros; lra. Qed.
(** the largest so far *)
Lemma fmax_bound s0 r s : s0 <> NaN -> flt s (fmax s0 r) = false -> s <> NaN -> flt s r = false /\ flt s s0 = false.
Proof.
  intros N0 H N. unfold fmax in H. destruct (flt s0 r) eqn:Y.
  - split; [exact H|]. apply not_true_is_false. intros X. pose proof (flt_trans _ _ _ X Y). congruence.
  - split; [|exact H]. apply not_true_is_false. intros X. destruct s0 as [| | |q0], s as [| | |q1], r as [| | |q2]; cbn in *; try discriminate; try congruence.
    apply Qltb_true in X. destruct (Qltb_spec q1 q0) as [L|L]; [discriminate|]. destruct (Qltb_spec q0 q2) as [M|M]; [discriminate|]. lra.
Qed.
Lemma weak_loop_spec u z : forall s snr0 noise0 snr noise, snr0 <> NaN -> weak_loop u z s snr0 noise0 = Ok (snr, noise) ->
  (forall x, In x s -> exists r n, line_fluxes u z (s_r x) = Ok (r, n) /\ flt snr r = false /\ n <= noise) /\
  (snr = snr0 \/ exists x n, In x s /\ line_fluxes u z (s_r x) = Ok (snr, n)) /\ (noise = noise0 \/ exists x r, In x s /\ line_fluxes u z (s_r x) = Ok (r, noise)) /\ flt snr snr0 = false /\ noise0 <= noise /\ snr <> NaN.
Proof.
  induction s as [|y t IH]; intros snr0 noise0 snr noise N H; cbn [weak_loop] in H.
  { inversion H; subst. split; [intros x []|]. split; [auto|]. split; [auto|]. split; [apply flt_irrefl|]. split; [apply Qle_refl|auto]. }
  destruct (line_fluxes u z (s_r y)) as [(r, n)| |] eqn:F; [|discriminate|discriminate]. cbn [rbind] in H.
  assert (SN : fmax snr0 r <> NaN) by (unfold fmax; destruct (flt snr0 r) eqn:X; [destruct snr0, r; cbn in X; try discriminate; congruence|auto]).
  apply (IH _ _ _ _ SN) in H. destruct H as (A & B & C & D & E & G).
  destruct (fmax_bound _ _ _ N D G) as (D1 & D2).
  split; [|split; [|split; [|split; [|split]]]].
  - intros x [<-|X]; [|apply A; exact X]. exists r, n. split; [exact F|]. split; [exact D1|]. destruct (Qltb_spec noise0 n) as [L|L]; lra.
  - destruct B as [B|(x & m & I0 & B)]; [|right; exists x, m; split; [right; exact I0|exact B]]. unfold fmax in B. destruct (flt snr0 r); [right; exists y, n; subst; split; [left; reflexivity|exact F]|left; exact B].
  - destruct C as [C|(x & m & I0 & C)]; [|right; exists x, m; split; [right; exact I0|exact C]]. destruct (Qltb noise0 n); [right; exists y, r; subst; split; [left; reflexivity|exact F]|left; exact C].
  - exact D2.
  - destruct (Qltb_spec noise0 n) as [L|L]; lra.
  - exact G.
Qed.
Lemma weak_loop_total u z : forall s snr noise, (forall x, In x s -> exists r n, line_fluxes u z (s_r x) = Ok (r, n)) -> exists a b, weak_loop u z s snr noise = Ok (a, b).
Proof. induction s as [|y t IH]; intros snr noise H; cbn [weak_loop]; [eauto|]. destruct (H y (or_introl eq_refl)) as (r & n & ->). cbn [rbind]. apply IH. intros x X. apply H. right; exact X. Qed.
Lemma strong_loop_spec u z snr noise : forall l b, strong_loop u z l snr noise = Ok b ->
  (b = true -> forall x, In x l -> exists r n, line_fluxes u z x = Ok (r, n) /\ ~ (flt r snr = true /\ n < noise)) /\
  (b = false -> exists x r n, In x l /\ line_fluxes u z x = Ok (r, n) /\ flt r snr = true /\ n < noise).
Proof.
  induction l as [|y t IH]; intros b H; cbn [strong_loop] in H; [inversion H; subst; split; [intros _ x []|discriminate]|].
  destruct (line_fluxes u z y) as [(r, n)| |] eqn:F; [|discriminate|discriminate]. cbn [rbind] in H.
  destruct (flt r snr && Qltb n noise)%bool eqn:T.
  - inversion H; subst. split; [discriminate|]. intros _. apply andb_true_iff in T. destruct T as (T1 & T2). apply Qltb_true in T2. exists y, r, n. split; [left; reflexivity|auto].
  - destruct (IH _ H) as (A & B). split.
    + intros E x [<-|X]; [|apply A; assumption]. exists r, n. split; [exact F|]. intros (T1 & T2). apply Qltb_true in T2. rewrite T1, T2 in T. discriminate.
    + intros E. destruct (B E) as (x & r' & n' & X & Y). exists x, r', n'. split; [right; exact X|exact Y].
Qed.
Lemma strong_loop_total u z snr noise : forall l, (forall x, In x l -> exists r n, line_fluxes u z x = Ok (r, n)) -> exists b, strong_loop u z l snr noise = Ok b.
Proof. induction l as [|y t IH]; intros H; cbn [strong_loop]; [eauto|]. destruct (H y (or_introl eq_refl)) as (r & n & ->). cbn [rbind]. destruct (_ && _)%bool; [eauto|]. apply IH. intros x X. apply H. right; exact X. Qed.

(** ** against the specification *)
Lemma measured_iff u z r ratio noise : line_fluxes u z r = Ok (ratio, noise) <-> measured u z r ratio noise.
Proof.
  unfold line_fluxes, measured. split.
  - intros H. destruct (GetIndexesAtWaveLengthRange _ _) as [(a, b)| |] eqn:E; cbn [rbind] in H; try discriminate.
    destruct (ComputeFluxes _ _ _ _) as [((r0, h), n)| |] eqn:F; cbn [rbind] in H; try discriminate. inversion H; subst. exists a, b, h. auto.
  - intros (a & b & h & -> & F). cbn [rbind]. rewrite F. reflexivity.
Qed.
Lemma measured_total u z r : good_rules u -> exists ratio noise, line_fluxes u z r = Ok (ratio, noise).
Proof.
  intros (G & L & W). unfold line_fluxes, GetIndexesAtWaveLengthRange. cbn [rbeg rend]. pose proof (proj1 G) as SI.
  destruct (first_or_last_ok _ (r_pos r * (1 + z) - u_win u / 2) SI L) as (a & -> & A1 & A2 & A3). destruct (first_or_last_ok _ (r_pos r * (1 + z) + u_win u / 2) SI L) as (b & -> & B1 & B2 & B3). cbn [rbind].
  assert (AB : (a <= b)%nat).
  { destruct (Nat.le_gt_cases a b) as [K|K]; [exact K|exfalso]. destruct (nth_error (sp_lam (u_spc u)) b) as [x|] eqn:X; [|apply nth_error_None in X; lia].
    pose proof (A2 b x K X). destruct (B3 x eq_refl) as [Y|Y]; [|lia]. assert (0 <= u_win u / 2) by (apply Qle_shift_div_l; lra). lra. }
  destruct (Fluxes_ok (u_spc u) (u_win u) (Z.of_nat a, Z.of_nat b) [] G (or_introl eq_refl) W) as (ratio & h & mad & F).
  - unfold inside_spectrum. cbn. lia.
  - exists (Z.of_nat a). cbn. split; [lia|left; reflexivity].
  - destruct F as (m & v & c & d & med & noise & F & _). rewrite F. cbn [rbind]. eauto.
Qed.
Lemma strong_in u r : In r (filter_rest (Some true) (Some true) (u_rest u)) <-> strong_rest u r.
Proof. rewrite filter_rest_strong. reflexivity. Qed.
Lemma only_weak_iff s : existsb (fun x => r_strong (s_r x)) s = false <-> only_weak s.
Proof.
  unfold only_weak. split.
  - intros H x X. destruct (r_strong (s_r x)) eqn:E; [|reflexivity]. assert (existsb (fun x => r_strong (s_r x)) s = true) by (apply existsb_exists; exists x; auto). congruence.
  - intros H. apply not_true_is_false. intros E. apply existsb_exists in E. destruct E as (x & X & E). rewrite (H x X) in E. discriminate.
Qed.
Lemma measured_fun u z r a b a' b' : measured u z r a b -> measured u z r a' b' -> a = a' /\ b = b'.
Proof. rewrite <- !measured_iff. intros H1 H2. rewrite H1 in H2. inversion H2. auto. Qed.
Lemma rule1 u z s : good_rules u -> exists b, checkRule01 u z s = Ok b /\ (b = false <-> only_weak s /\ missing_strong u z s).
Proof.
  intros G. unfold checkRule01. destruct (existsb _ s) eqn:ES.
  { exists true. split; [reflexivity|]. split; [discriminate|]. intros (W & _). apply only_weak_iff in W. congruence. }
  apply only_weak_iff in ES. destruct (filter _ _) as [|f0 fl] eqn:F.
  { exists true. split; [reflexivity|]. split; [discriminate|]. intros (_ & (r & R & I0) & _). assert (X : In r []) by (rewrite <- F; apply filter_In; split; [apply strong_in; exact R|exact I0]). destruct X. }
  destruct (weak_loop_total u z s (Fin 0) 0) as (mr & mn & W); [intros x _; apply measured_total; exact G|]. rewrite W. cbn [rbind].
  destruct (strong_loop_total u z mr mn (filter_rest (Some true) (Some true) (u_rest u))) as (b & B); [intros x _; apply measured_total; exact G|]. exists b. split; [exact B|].
  apply weak_loop_spec in W; [|discriminate]. destruct W as (W1 & W2 & W3 & W4 & W5 & W6).
  assert (LR : largest_ratio u z s mr).
  { split; [exact W6|]. split; [|split; [exact W4|]].
    - destruct W2 as [W2|(x & n & X & Y)]; [left; exact W2|right; exists x, n; split; [exact X|apply measured_iff; exact Y]].
    - intros x r n X M. destruct (W1 x X) as (r' & n' & Y & Z1 & Z2). apply measured_iff in Y. destruct (measured_fun _ _ _ _ _ _ _ M Y) as (-> & ->). exact Z1. }
  assert (LN : largest_noise u z s mn).
  { split; [|split; [exact W5|]].
    - destruct W3 as [W3|(x & r & X & Y)]; [left; exact W3|right; exists x, r; split; [exact X|apply measured_iff; exact Y]].
    - intros x r n X M. destruct (W1 x X) as (r' & n' & Y & Z1 & Z2). apply measured_iff in Y. destruct (measured_fun _ _ _ _ _ _ _ M Y) as (-> & ->). exact Z2. }
  destruct (strong_loop_spec _ _ _ _ _ _ B) as (S1 & S2). split.
  - intros E. split; [exact ES|]. split.
    + exists f0. assert (X : In f0 (f0 :: fl)) by (left; reflexivity). rewrite <- F in X. apply filter_In in X. destruct X as (X & Y). split; [apply strong_in; exact X|exact Y].
    + exists mr, mn. split; [exact LR|]. split; [exact LN|]. destruct (S2 E) as (x & r & n & X & M & Y & Z0). exists x, r, n. split; [apply strong_in; exact X|]. split; [apply measured_iff; exact M|]. auto.
  - intros (_ & _ & mr' & mn' & LR' & LN' & r & ra & no & R & M & Y & Z0). destruct b; [|reflexivity]. exfalso.
    apply strong_in in R. destruct (S1 eq_refl r R) as (r' & n' & M' & C). apply measured_iff in M'. destruct (measured_fun _ _ _ _ _ _ _ M M') as (<- & <-). apply C.
    split.
    + (* the two largest ratios are equal in the order *)
      destruct LR as (NA & _ & A0 & A). destruct LR' as (NB & B1 & B0 & _).
      assert (X : flt mr mr' = false) by (destruct B1 as [->|(x & n & X & M1)]; [exact A0|apply (A x mr' n X M1)]).
      destruct ra as [| | |q0], mr as [| | |q1], mr' as [| | |q2]; cbn in *; try congruence. destruct (Qltb_spec q1 q2); [discriminate|]. apply Qltb_true in Y. apply Qltb_true. lra.
    + destruct LN as (_ & A0 & A). destruct LN' as ([->|(x & rr & X & M1)] & _); [lra|]. pose proof (A x rr mn' X M1). lra.
Qed.
Lemma named_iff tag r : tag <> ""%string -> (contains tag (r_name r) = true <-> named tag r).
Proof. intros H. apply contains_iff. exact H. Qed.
Lemma named_false tag r : tag <> ""%string -> (contains tag (r_name r) = false <-> ~ named tag r).
Proof. intros H. rewrite <- (named_iff _ _ H). destruct (contains tag (r_name r)); intuition congruence. Qed.
Lemma count_zero tag s : tag <> ""%string -> (count_named tag s = 0%nat <-> none_named tag s).
Proof.
  intros T. unfold count_named, none_named. split.
  - intros H x X N. apply (named_iff _ _ T) in N. apply length_zero_iff_nil in H. assert (Y : In x []) by (rewrite <- H; apply filter_In; auto). destruct Y.
  - intros H. apply length_zero_iff_nil. destruct (filter _ s) as [|y l] eqn:F; [reflexivity|]. exfalso. assert (X : In y (y :: l)) by (left; reflexivity). rewrite <- F in X. apply filter_In in X. destruct X as (X & Y). apply (H y X). apply (named_iff _ _ T). exact Y.
Qed.
Lemma count_one tag s : tag <> ""%string -> (count_named tag s = 1%nat <-> one_named tag s).
Proof.
  intros T. unfold one_named. split.
  - induction s as [|y t IH]; [discriminate|]. unfold count_named. cbn [filter]. destruct (contains tag (r_name (s_r y))) eqn:C; cbn [List.length]; intros H.
    + exists [], y, t. split; [reflexivity|]. split; [apply (named_iff _ _ T); exact C|]. intros x [[]|X]. apply (proj1 (count_zero tag t T)); [unfold count_named; lia|exact X].
    + destruct (IH H) as (a & x & b & -> & N & O). exists (y :: a), x, b. split; [reflexivity|]. split; [exact N|]. intros w [[<-|X]|X]; [apply (named_false _ _ T); exact C|apply O; auto|apply O; auto].
  - intros (a & x & b & -> & N & O). unfold count_named. rewrite filter_app, app_length. cbn [filter]. rewrite (proj2 (named_iff _ _ T) N). cbn [List.length].
    pose proof (proj2 (count_zero tag a T) (fun y Y => O y (or_introl Y))). pose proof (proj2 (count_zero tag b T) (fun y Y => O y (or_intror Y))). unfold count_named in *. lia.
Qed.
Lemma position_iff u tag p : tag <> ""%string -> (getRestLineLambda u tag = Some p <-> catalog_position u tag p).
Proof.
  intros T. unfold getRestLineLambda, catalog_position. induction (u_rest u) as [|r l IH]; cbn [find].
  - split; [discriminate|]. intros (a & r & b & E & _). destruct a; discriminate.
  - destruct (contains tag (r_name r)) eqn:C; cbn [option_map].
    + split.
      * intros E. inversion E. exists [], r, l. split; [reflexivity|]. split; [apply (named_iff _ _ T); exact C|]. split; [reflexivity|]. intros y [].
      * intros (a & r' & b & E & N & P & O). destruct a as [|a0 a]; cbn in E; inversion E; subst; [reflexivity|]. exfalso. apply (O a0 (or_introl eq_refl)). apply (named_iff _ _ T). exact C.
    + rewrite IH. split.
      * intros (a & r' & b & -> & N & P & O). exists (r :: a), r', b. split; [reflexivity|]. split; [exact N|]. split; [exact P|]. intros y [<-|Y]; [apply (named_false _ _ T); exact C|apply O; exact Y].
      * intros (a & r' & b & E & N & P & O). destruct a as [|a0 a]; cbn in E; inversion E; subst; [exfalso; apply (proj1 (named_false _ _ T) C N)|]. exists a, r', b. split; [reflexivity|]. split; [exact N|]. split; [reflexivity|]. intros y Y. apply O. right. exact Y.
Qed.
Lemma inside_partner u z tag : tag <> ""%string -> (isLineInsideRange u (at_z (getRestLineLambda u tag) z) true = true <-> partner_inside u z tag).
Proof.
  intros T. unfold partner_inside, at_z. split.
  - destruct (getRestLineLambda u tag) as [p|] eqn:E; cbn [option_map]; [|discriminate]. intros H. exists p. split; [apply (position_iff _ _ _ T); exact E|exact H].
  - intros (p & P & H). apply (position_iff _ _ _ T) in P. rewrite P. exact H.
Qed.
Lemma rule2 u z s : checkRule02 u z s = false <-> partner_inside u z oIIIa_em /\ one_named oIIIb_em s /\ none_named oIIIa_em s.
Proof.
  unfold checkRule02. rewrite negb_false_iff, andb_true_iff, !Nat.eqb_eq, count_zero by discriminate.
  destruct (isLineInsideRange _ _ true) eqn:I0.
  - rewrite count_one by discriminate. apply inside_partner in I0; [|discriminate]. tauto.
  - split; [intros (X & _); discriminate|]. intros (P & _). apply inside_partner in P; [congruence|discriminate].
Qed.
Lemma rule3 u z s : checkRule03 u z s = false <-> partner_inside u z halpha_em /\ one_named hbeta_em s /\ ~ one_named halpha_em s.
Proof.
  unfold checkRule03. rewrite negb_false_iff, andb_true_iff, negb_true_iff, Nat.eqb_eq, Nat.eqb_neq, <- (count_one halpha_em) by discriminate.
  destruct (isLineInsideRange _ _ true) eqn:I0.
  - rewrite count_one by discriminate. apply inside_partner in I0; [|discriminate]. tauto.
  - split; [intros (X & _); discriminate|]. intros (P & _). apply inside_partner in P; [congruence|discriminate].
Qed.
Lemma check_total u z s : good_rules u -> exists k, check u z s = Ok k.
Proof. intros G. unfold check. destruct (rule1 u z s G) as (b & -> & _). cbn [rbind]. eauto. Qed.
Lemma check_digits u z s k : good_rules u -> check u z s = Ok k -> exists a b c, k = (a + 10 * b + 100 * c)%Z /\
  ((a = 1%Z /\ only_weak s /\ missing_strong u z s) \/ (a = 0%Z /\ ~ (only_weak s /\ missing_strong u z s))) /\
  ((b = 1%Z /\ partner_inside u z oIIIa_em /\ one_named oIIIb_em s /\ none_named oIIIa_em s) \/ (b = 0%Z /\ ~ (partner_inside u z oIIIa_em /\ one_named oIIIb_em s /\ none_named oIIIa_em s))) /\
  ((c = 1%Z /\ partner_inside u z halpha_em /\ one_named hbeta_em s /\ ~ one_named halpha_em s) \/ (c = 0%Z /\ ~ (partner_inside u z halpha_em /\ one_named hbeta_em s /\ ~ one_named halpha_em s))).
Proof.
  intros G. unfold check. destruct (rule1 u z s G) as (r1 & -> & R1). cbn [rbind]. intros H. inversion H; subst; clear H.
  exists (if r1 then 0 else 1)%Z, (if checkRule02 u z s then 0 else 1)%Z, (if checkRule03 u z s then 0 else 1)%Z. split; [destruct r1, (checkRule02 u z s), (checkRule03 u z s); reflexivity|].
  rewrite <- rule2, <- rule3, <- R1. destruct r1, (checkRule02 u z s), (checkRule03 u z s); intuition congruence.
Qed.
Definition kept_by (u : crules) (s : list sol) : bool := match check u (mean_z s) s with Ok k => (k <=? 0)%Z | _ => false end.
Lemma filter_spec u : forall l kept removed codes, filter_sets u l = Ok (kept, removed, codes) ->
  kept = filter (kept_by u) l /\ removed = filter (fun s => negb (kept_by u s)) l /\ Forall2 (fun s k => check u (mean_z s) s = Ok k /\ (0 < k)%Z) removed codes /\ forall s, In s kept -> check u (mean_z s) s = Ok 0%Z \/ exists k, check u (mean_z s) s = Ok k /\ (k <= 0)%Z.
Proof.
  induction l as [|s t IH]; intros kept removed codes H; cbn [filter_sets] in H; [inversion H; subst; repeat split; auto; intros s []|].
  destruct (check u (mean_z s) s) as [k| |] eqn:C; cbn [rbind] in H; try discriminate. destruct (filter_sets u t) as [((a, b), c)| |] eqn:F; cbn [rbind] in H; try discriminate.
  destruct (IH _ _ _ eq_refl) as (A & B & D & E). cbn [filter]. assert (K : kept_by u s = (k <=? 0)%Z) by (unfold kept_by; rewrite C; reflexivity). rewrite K. destruct (Z.leb_spec k 0) as [L|L]; inversion H; subst; cbn [negb]; (split; [reflexivity|split; [reflexivity|split]]); auto.
  intros x [<-|X]; [right; exists k; auto|apply E; exact X].
Qed.
Lemma filter_total u : good_rules u -> forall l, exists kept removed codes, filter_sets u l = Ok (kept, removed, codes).
Proof. intros G. induction l as [|s t (a & b & c & IH)]; cbn [filter_sets]; [eauto|]. destruct (check_total u (mean_z s) s G) as (k & ->). cbn [rbind]. rewrite IH. cbn [rbind]. destruct (k <=? 0)%Z; eauto. Qed.

(** ** the range is never used *)
Lemma inside_iff u l w : ~ u_lo u + (if w : bool then 1 else 0) == 0 -> ~ u_hi u + (if w then 1 else 0) == 0 -> (isLineInsideRange u (Some l) w = true <-> l == u_win u).
Proof.
  intros A B. unfold isLineInsideRange, bound. assert (Qeq_bool (u_lo u + (if w then 1 else 0)) 0 = false) as -> by (apply not_true_is_false; rewrite Qeq_bool_iff; exact A).
  assert (Qeq_bool (u_hi u + (if w then 1 else 0)) 0 = false) as -> by (apply not_true_is_false; rewrite Qeq_bool_iff; exact B). rewrite andb_true_iff, !Qle_bool_iff. split; [intros (X & Y); lra|intros X; lra].
Qed.
Lemma never u l : 0 < u_lo u -> 0 < u_hi u -> (forall r, In r (u_rest u) -> u_win u < r_pos r /\ 0 < r_pos r) -> (forall s x, In s l -> In x s -> 0 <= s_z x) -> filter_sets u l = Ok (l, [], []).
Proof.
  intros LO HI R Z0. induction l as [|s t IH]; cbn [filter_sets]; [reflexivity|].
  assert (MZ : 0 <= mean_z s).
  { rewrite mean_spec. unfold mean_redshift. assert (P : 0 <= fold_right (fun x v => s_z x + v) 0 s).
    { assert (Q0 : forall x, In x s -> 0 <= s_z x) by (intros x X; apply (Z0 s x); [left; reflexivity|exact X]). clear - Q0. induction s as [|y t IH]; cbn [fold_right]; [apply Qle_refl|].
      pose proof (Q0 y (or_introl eq_refl)). assert (0 <= fold_right (fun x v => s_z x + v) 0 t) by (apply IH; intros x X; apply Q0; right; exact X). lra. }
    destruct s as [|y s']; [vm_compute; discriminate|]. apply Qle_shift_div_l; [cbn [List.length]; rewrite Nat2Z.inj_succ; unfold inject_Z, Qlt; cbn; lia|lra]. }
  assert (NI : forall r w, In r (u_rest u) -> isLineInsideRange u (Some (r_pos r * (1 + mean_z s))) w = false).
  { intros r w I0. apply not_true_is_false. intros X. apply inside_iff in X; [|destruct w; lra|destruct w; lra]. destruct (R r I0) as (A & B). assert (r_pos r * 1 <= r_pos r * (1 + mean_z s)) by (apply Qmult_le_l; lra). lra. }
  assert (NP : forall tag, tag <> ""%string -> ~ partner_inside u (mean_z s) tag).
  { intros tag T (p & (a & r & b & E & N & P & O) & X). subst p. rewrite NI in X; [discriminate|]. rewrite E. apply in_or_app. right; left; reflexivity. }
  assert (C : check u (mean_z s) s = Ok 0%Z).
  { unfold check. assert (checkRule01 u (mean_z s) s = Ok true) as ->.
    { unfold checkRule01. destruct (existsb _ s); [reflexivity|]. destruct (filter (fun r : rest => isLineInsideRange u (Some (r_pos r * (1 + mean_z s))) false) _) as [|f fl] eqn:F; [reflexivity|]. exfalso.
      assert (X : In f (f :: fl)) by (left; reflexivity). rewrite <- F in X. apply filter_In in X. destruct X as (X & Y). apply strong_in in X. rewrite NI in Y; [discriminate|apply X]. }
    cbn [rbind]. destruct (checkRule02 u (mean_z s) s) eqn:R2; [|exfalso; apply rule2 in R2; apply (NP oIIIa_em); [discriminate|apply R2]].
    destruct (checkRule03 u (mean_z s) s) eqn:R3; [|exfalso; apply rule3 in R3; apply (NP halpha_em); [discriminate|apply R3]]. reflexivity. }
  rewrite C. cbn [rbind]. rewrite IH; [reflexivity|]. intros s' x X Y. apply (Z0 s' x); [right; exact X|exact Y].
Qed.
Lemma check_zero u z s : good_rules u -> (check u z s = Ok 0%Z <-> ~ (only_weak s /\ missing_strong u z s) /\ ~ (partner_inside u z oIIIa_em /\ one_named oIIIb_em s /\ none_named oIIIa_em s) /\ ~ (partner_inside u z halpha_em /\ one_named hbeta_em s /\ ~ one_named halpha_em s)).
Proof.
  intros G. destruct (check_total u z s G) as (k & K). rewrite K. destruct (check_digits u z s k G K) as (a & b & c & -> & A & B & C). split.
  - intros H. assert (a + 10 * b + 100 * c = 0)%Z by congruence. destruct A as [(-> & _)|(-> & A)], B as [(-> & _)|(-> & B)], C as [(-> & _)|(-> & C)]; try lia. auto.
  - intros (A' & B' & C'). destruct A as [(_ & A)|(-> & A)]; [contradiction|]. destruct B as [(_ & B)|(-> & B)]; [contradiction|]. destruct C as [(_ & C)|(-> & C)]; [contradiction|]. reflexivity.
Qed.
Lemma check_nonneg u z s k : good_rules u -> check u z s = Ok k -> (0 <= k)%Z.
Proof. intros G K. destruct (check_digits u z s k G K) as (a & b & c & -> & A & B & C). destruct A as [(-> & _)|(-> & A)], B as [(-> & _)|(-> & B)], C as [(-> & _)|(-> & C)]; lia. Qed.
Lemma filter_ok u l ok : good_rules u -> (forall s, In s l -> (ok s = true <-> check u (mean_z s) s = Ok 0%Z)) ->
  exists codes, filter_sets u l = Ok (filter ok l, filter (fun s => negb (ok s)) l, codes) /\ Forall2 (fun s k => check u (mean_z s) s = Ok k) (filter (fun s => negb (ok s)) l) codes.
Proof.
  intros G H. destruct (filter_total u G l) as (kept & removed & codes & F). exists codes. pose proof F as F0. apply filter_spec in F. destruct F as (A & B & C & _).
  assert (E : forall s, In s l -> kept_by u s = ok s).
  { intros s S0. unfold kept_by. destruct (check_total u (mean_z s) s G) as (k & K). rewrite K. pose proof (check_nonneg _ _ _ _ G K) as P. specialize (H s S0). rewrite K in H.
    destruct (Z.leb_spec k 0) as [L|L]; [symmetry; apply H; f_equal; lia|]. symmetry; apply not_true_is_false; intros X; apply H in X; inversion X; lia. }
  rewrite (filter_ext_in _ _ _ E) in A. rewrite (filter_ext_in _ (fun s => negb (ok s)) l) in B by (intros s S0; rewrite (E s S0); reflexivity). subst kept removed. split; [exact F0|].
  clear - C. induction C as [|x y a b (X & _) _ IH]; constructor; auto.
Qed.
