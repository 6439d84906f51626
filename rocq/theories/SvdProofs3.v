(** C69, proofs: the fit always ends, the merit of an offset, the Balmer lines. *)
From Coq Require Import Qabs Lqa.
From Verif Require Import Base MeikModel SvdModel SvdSpec SvdProofs SvdProofs2.
Open Scope Q_scope.

Section End.
  Variables (axis flux err cont : nat -> Q) (col : option nat -> nat -> nat -> Q) (supp : list nat -> list nat) (solve : nat -> list obs -> list Q * list Q) (sqrtf : Q -> Q)
    (single : option nat -> nat -> option Q * option Q) (dblmin : Q) (offs : bool).
  Hypothesis EX : exact solve.
  Hypothesis MIN : 0 < dblmin.
  Notation LIN := (fitAmplitudesLinSolve axis flux err col supp solve sqrtf dblmin offs).
  Notation POS := (fitAmplitudesLinSolvePositive axis flux err col supp solve sqrtf single dblmin offs).
  Lemma fold_off l (x d : option Q) : forall s, s_off (fold_left (fun s e => SetElementAmplitude s e x d) l s) = s_off s.
  Proof. induction l as [|e t IH]; intros s; cbn [fold_left]; [reflexivity|]. rewrite IH. reflexivity. Qed.
  Lemma poly_off es p s : s_off (set_poly s es p) = s_off s.
  Proof. destruct (set_poly_spec es p s) as (_ & _ & _ & _ & O). exact O. Qed.
  Lemma all_off fit : forall a sd s, s_off (set_all s fit a sd) = s_off s.
  Proof. induction fit as [|e t IH]; intros [|x a] [|d sd] s; cbn [set_all]; try reflexivity. rewrite IH. reflexivity. Qed.
  Lemma lin_off o es idx s r : LIN o es idx s = Ok r -> s_off (r_s r) = s_off s.
  Proof.
    unfold fitAmplitudesLinSolve. destruct es as [|e0 es0]; [discriminate|]. generalize (e0 :: es0). clear e0 es0. intros es. destruct (supp es); [discriminate|]. destruct (match idx with [] => _ | _ :: _ => _ end) as [fit| |]; [|discriminate|discriminate]. cbn [rbind].
    destruct (Nat.ltb _ _).
    - intros H. inversion H; subst r; clear H. cbn [r_s]. destruct offs; [rewrite poly_off|]; rewrite fold_off; reflexivity.
    - destruct (solve _ _) as [c var]. intros H. inversion H; subst r; clear H. cbn [r_s]. destruct offs; [rewrite poly_off|]; rewrite all_off, fold_off; reflexivity.
  Qed.
  Lemma clip_off es : forall a sd s i, s_off (fst (clip s i es a sd)) = s_off s.
  Proof.
    induction es as [|e t IH]; intros [|x a] [|d sd] s i; cbn [clip]; try reflexivity. destruct (Qltb x 0); [rewrite IH; reflexivity|]. specialize (IH a sd s (S i)). destruct (clip s (S i) t a sd). exact IH.
  Qed.
  Lemma single_off o s e : s_off (fitSingle single o s e) = s_off s.
  Proof. unfold fitSingle. destruct (single o e). reflexivity. Qed.
  Lemma refit_off o es : forall pos a sd s s', refit single o es s pos a sd = Ok s' -> s_off s' = s_off s.
  Proof.
    induction pos as [|i t IH]; intros [|x a] [|d sd] s s'; cbn [refit]; try (intros H; inversion H; reflexivity). destruct (vget es i) as [e| |]; [|discriminate|discriminate]. cbn [rbind]. intros H. rewrite (IH _ _ _ _ H).
    destruct (Qltb 0 x); [apply single_off|reflexivity].
  Qed.
  Lemma Pos_off o es s s' : POS o es s = Ok s' -> s_off s' = s_off s.
  Proof.
    unfold fitAmplitudesLinSolvePositive. destruct (LIN o es [] s) as [r| |] eqn:L; [|discriminate|discriminate]. cbn [rbind]. apply lin_off in L. destruct (r_pos r); [intros H; inversion H; subst; exact L|].
    pose proof (clip_off es (r_amps r) (r_errs r) (r_s r) 0) as C. destruct (clip (r_s r) 0 es (r_amps r) (r_errs r)) as [s1 pos]. cbn [fst] in C. destruct pos as [|i t]; [intros H; inversion H; subst; congruence|].
    destruct (negb offs && _)%bool.
    - destruct (vget es i) as [e| |]; [|discriminate|discriminate]. cbn [rbind]. intros H; inversion H; subst. rewrite single_off. congruence.
    - destruct (LIN o es (i :: t) s1) as [r2| |] eqn:L2; [|discriminate|discriminate]. cbn [rbind]. apply lin_off in L2. destruct (r_pos r2); [intros H; inversion H; subst; congruence|]. intros H. apply refit_off in H. congruence.
  Qed.
  Definition ready (es : list nat) : Prop := es <> [] /\ supp es <> [] /\ NoDup es /\ forall i, In i (supp es) -> ~ err i == 0.
  Lemma Pos_ok o es s : ready es -> exists s', POS o es s = Ok s'.
  Proof.
    intros (A & B & C & D). destruct (Nat.le_gt_cases (nddl offs es) (length (supp es))) as [L|L].
    - destruct (Positive_ranked axis flux err col supp solve sqrtf single dblmin offs EX MIN o es s A B C D L) as (s' & E & _). exists s'. exact E.
    - destruct (Positive_poor axis flux err col supp solve sqrtf single dblmin offs EX MIN o es s A B C D L) as (s' & E & _). exists s'. exact E.
  Qed.
  Notation MERIT := (merit flux err cont col supp sqrtf).
  Lemma Offsets_end n es s0 : ready es -> (0 < n)%nat ->
    exists s' b sF, fitAmplitudesLinSolveAndLambdaOffset axis flux err cont col supp solve sqrtf single dblmin offs n es true s0 = Ok s' /\ s_off s' = Some b /\ (b < n)%nat /\
      POS (Some b) es s0 = Ok sF /\ (forall e, In e es -> s_amp s' e = s_amp sF e) /\
      ((exists v, MERIT (Some b) es sF = Some v /\ forall i w sI, (i < n)%nat -> POS (Some i) es s0 = Ok sI -> MERIT (Some i) es sI = Some w -> v <= w /\ ((i < b)%nat -> v < w)) \/
       (b = (n - 1)%nat /\ forall i sI, (i < n)%nat -> POS (Some i) es s0 = Ok sI -> MERIT (Some i) es sI = None)).
  Proof.
    intros R N. destruct (Offsets axis flux err cont col supp solve sqrtf single dblmin offs s0 es (fun o => Pos_ok o es s0 R) n (fun o s s' => Pos_off o es s s') N) as (s' & b & sF & E & O & B & P & A & M).
    exists s', b, sF. split; [exact E|]. split; [exact O|]. split; [exact B|]. split; [exact P|]. split; [exact A|]. unfold merit_at in M. destruct M as [(v & V & W)|(Z & W)].
    - left. exists v. rewrite P in V. split; [exact V|]. intros i w sI I PI MI. apply (W i w I). rewrite PI. exact MI.
    - right. split; [exact Z|]. intros i sI I PI. specialize (W i I). rewrite PI in W. exact W.
  Qed.
  (** the merit *)
  Lemma residual_acc o es s ref xs : forall a b, fst (residual err cont col o es s ref xs (a, b)) == a + fst (residual err cont col o es s ref xs (0, 0)) /\ snd (residual err cont col o es s ref xs (a, b)) == b + snd (residual err cont col o es s ref xs (0, 0)).
  Proof.
    induction xs as [|i t IH]; intros a b; cbn [residual fst snd]; [split; ring|]. destruct (IH (a + (ref i - (cont i + drawn_lines col o es s i)) * (ref i - (cont i + drawn_lines col o es s i)) * (1 / (err i * err i))) (b + 1 / (err i * err i))) as (A & B).
    destruct (IH (0 + (ref i - (cont i + drawn_lines col o es s i)) * (ref i - (cont i + drawn_lines col o es s i)) * (1 / (err i * err i))) (0 + 1 / (err i * err i))) as (C & D). rewrite A, B, C, D. split; ring.
  Qed.
  Lemma drawn_is o es : forall a s i, has_amps s es a -> (forall v, In v a -> 0 <= v) -> drawn_lines col o es s i == lines_at (col o) es a i.
  Proof.
    induction es as [|e t IH]; intros [|x a] s i H P; unfold has_amps in H; cbn [map] in H; try discriminate; cbn [drawn_lines lines_at]; [reflexivity|]. inversion H as [[H1 H2]]. rewrite (IH a s i H2) by (intros v V; apply P; right; exact V).
    rewrite H1. unfold drawn_amp. destruct (Qltb_spec x 0) as [L|L]; [|reflexivity]. specialize (P x (or_introl eq_refl)). lra.
  Qed.
  Lemma residual_chi2 o es a s ref : has_amps s es a -> (forall v, In v a -> 0 <= v) -> forall xs, (forall i, In i xs -> ~ err i == 0) ->
    fst (residual err cont col o es s ref xs (0, 0)) == chi2 axis (fun i => ref i - cont i) err (col o) es a no_poly xs /\ snd (residual err cont col o es s ref xs (0, 0)) == weights err xs.
  Proof.
    intros H P. induction xs as [|i t IH]; intros E; cbn [residual chi2 weights fst snd]; [split; reflexivity|]. destruct (residual_acc o es s ref t (0 + (ref i - (cont i + drawn_lines col o es s i)) * (ref i - (cont i + drawn_lines col o es s i)) * (1 / (err i * err i))) (0 + 1 / (err i * err i))) as (A & B).
    destruct IH as (C & D); [intros; apply E; right; assumption|]. rewrite A, B, C, D, (drawn_is o es a s i H P). unfold poly_at, no_poly. cbn [fst snd]. split; [|ring]. field. apply E. left. reflexivity.
  Qed.
  Lemma Merit o es a s : has_amps s es a -> (forall v, In v a -> 0 <= v) -> (forall i, In i (supp es) -> ~ err i == 0) -> (forall x y, x == y -> sqrtf x == sqrtf y) ->
    let c := chi2 axis (fun i => flux i - cont i) err (col o) es a no_poly (supp es) in
    (c == 0 -> MERIT o es s = None) /\ (0 < c -> exists v, MERIT o es s = Some v /\ v == sqrtf (c / weights err (supp es))).
  Proof.
    intros H P E SQ c. destruct (residual_chi2 o es a s flux H P (supp es) E) as (A & B). fold c in A. unfold merit, rms. split.
    - intros Z. destruct (Qeq_bool (fst _) 0) eqn:D; [reflexivity|]. apply Qeq_bool_neq in D. exfalso. apply D. rewrite A. exact Z.
    - intros Z. destruct (Qeq_bool (fst _) 0) eqn:D; [apply Qeq_bool_eq in D; exfalso; lra|]. destruct (Qeq_bool (snd _) 0) eqn:D2.
      + apply Qeq_bool_eq in D2. exfalso. rewrite B in D2. clear -D2 E Z c. assert (G : forall xs, (forall i, In i xs -> ~ err i == 0) -> xs <> [] -> 0 < weights err xs).
        { assert (SQP : forall i, ~ err i == 0 -> 0 < 1 / (err i * err i)). { intros i N. apply Qlt_shift_div_l; [|lra]. pose proof (sq0 (err i)) as S0. destruct (Qlt_le_dec 0 (err i * err i)) as [L|L]; [exact L|]. assert (Q0 : err i * err i == 0) by lra. apply Qmult_integral in Q0. tauto. }
          induction xs as [|i [|k t] IH]; intros Er Ne; [congruence| |]; cbn [weights].
          - pose proof (SQP i (Er i (or_introl eq_refl))). lra.
          - pose proof (SQP i (Er i (or_introl eq_refl))). assert (0 < weights err (k :: t)) by (apply IH; [intros; apply Er; right; assumption|discriminate]). cbn [weights] in *. lra. }
        destruct (supp es) as [|i t]; [unfold c in Z; cbn in Z; lra|]. assert (X := G (i :: t) E ltac:(discriminate)). lra.
      + eexists. split; [reflexivity|]. apply SQ. rewrite A, B. reflexivity.
  Qed.

  (** * the Balmer lines *)
  Variable nom : nat -> nat -> Q.
  Lemma restored_same s e k : ~ nom e k == 0 -> same_amp (restored nom s e k k) (s_amp s e).
  Proof. intros N. unfold restored, same_amp. destruct (s_amp s e); [|trivial]. field. exact N. Qed.
  Lemma same_refl a : same_amp a a. Proof. destruct a; cbn; [reflexivity|trivial]. Qed.
  Lemma restored_0k s e k : ~ nom e k == 0 -> nom e 0%nat == nom e k -> same_amp (restored nom s e 0 k) (s_amp s e).
  Proof. intros N Z. unfold restored, same_amp. destruct (s_amp s e); [|trivial]. rewrite Z. field. exact N. Qed.
  Lemma restore_more_spec s0 : forall more ids s, (length more <= length ids)%nat -> NoDup more ->
    exists s', restore_more nom s0 s more ids = Ok s' /\ (forall j e k, nth_error more j = Some e -> nth_error ids j = Some k -> s_amp s' e = restored nom s0 e 0 k) /\ (forall e, ~ In e more -> s_amp s' e = s_amp s e).
  Proof.
    induction more as [|e more IH]; intros ids s L ND; cbn [restore_more].
    - exists s. split; [reflexivity|]. split; [intros [|j] e k C; discriminate|auto].
    - destruct ids as [|k ids]; [cbn in L; lia|]. inversion ND as [|? ? Ne NDt]; subst. destruct (IH ids (SetElementAmplitude s e (restored nom s0 e 0 k) (restored_std nom s0 e 0 k))) as (s' & E & A & B); [cbn in L; lia|exact NDt|].
      exists s'. split; [exact E|]. split.
      + intros [|j] e' k' C D; cbn in C, D.
        * inversion C; inversion D; subst. rewrite (B e' Ne), amp_set, Nat.eqb_refl. reflexivity.
        * exact (A j e' k' C D).
      + intros e' N. rewrite B by (intros C; apply N; right; exact C). rewrite amp_set. destruct (Nat.eqb_spec e' e) as [->|]; [exfalso; apply N; left; reflexivity|reflexivity].
  Qed.
  Lemma Balmer o eA lA eE lE more ids err_init err_after s : ready (eA :: eE :: more) -> (length more <= length ids)%nat ->
    exists s1 s', LIN o (eA :: eE :: more) [] s = Ok s1 /\ balmer axis flux err col supp solve sqrtf dblmin offs nom o eA lA eE lE more ids err_init err_after s = Ok s' /\
      ((exists a b, err_init = Some a /\ err_after (r_s s1) = Some b /\ a < b /\
          (~ nom eA lA == 0 -> same_amp (s_amp s' eA) (s_amp s eA)) /\ (~ nom eE lE == 0 -> same_amp (s_amp s' eE) (s_amp s eE)) /\
          (forall j e k, nth_error more j = Some e -> nth_error ids j = Some k -> ~ nom e k == 0 -> nom e 0%nat == nom e k -> same_amp (s_amp s' e) (s_amp s e)) /\
          (forall e, ~ In e (eA :: eE :: more) -> s_amp s' e = s_amp s e)) \/
       (s' = r_s s1 /\ forall a b, err_init = Some a -> err_after (r_s s1) = Some b -> b <= a)).
  Proof.
    intros (NE & NX & ND & ER) L. unfold balmer. destruct (Linear axis flux err col supp solve sqrtf dblmin offs EX MIN o (eA :: eE :: more) [] s NE NX ND (NoDup_nil _) (fun i C => match C with end) ER) as (fit & FI & L2 & L1). cbn in FI. subst fit.
    assert (OK : exists r, LIN o (eA :: eE :: more) [] s = Ok r /\ forall e, ~ In e (eA :: eE :: more) -> s_amp (r_s r) e = s_amp s e).
    { destruct (Nat.le_gt_cases (nddl offs (eA :: eE :: more)) (length (supp (eA :: eE :: more)))) as [K|K].
      - destruct (L2 K) as (r & a & p & E & _ & _ & _ & _ & _ & _ & O & _). exists r. split; [exact E|]. intros e N. apply (O e N).
      - destruct (L1 K) as (r & E & _ & _ & O & _). exists r. split; [exact E|]. intros e N. apply (O e N). }
    destruct OK as (r & E & OUT). exists r. rewrite E. cbn [rbind]. destruct (err_after (r_s r)) as [b|]; [|exists (r_s r); split; [reflexivity|]; split; [reflexivity|]; right; split; [reflexivity|discriminate]].
    destruct err_init as [a|]; [|exists (r_s r); split; [reflexivity|]; split; [reflexivity|]; right; split; [reflexivity|discriminate]].
    destruct (Qltb_spec a b) as [LT|LT]; [|exists (r_s r); split; [reflexivity|]; split; [reflexivity|]; right; split; [reflexivity|]; intros a' b' H1 H2; inversion H1; inversion H2; subst; lra].
    inversion ND as [|? ? NA ND1]; subst. inversion ND1 as [|? ? NEE ND2]; subst.
    destruct (restore_more_spec s more ids (SetElementAmplitude (SetElementAmplitude (r_s r) eA (restored nom s eA lA lA) (restored_std nom s eA lA lA)) eE (restored nom s eE lE lE) (restored_std nom s eE lE lE)) L ND2) as (s' & E' & A & B).
    exists s'. split; [reflexivity|]. split; [exact E'|]. left. exists a, b. split; [reflexivity|]. split; [reflexivity|]. split; [exact LT|]. split; [|split; [|split]].
    - intros N. rewrite B by (intros C; apply NA; right; exact C). rewrite !amp_set. destruct (Nat.eqb_spec eA eE) as [X|X]; [exfalso; apply NA; left; congruence|]. rewrite Nat.eqb_refl. apply restored_same. exact N.
    - intros N. rewrite B by exact NEE. rewrite amp_set, Nat.eqb_refl. apply restored_same. exact N.
    - intros j e k J K N Z. rewrite (A j e k J K). apply restored_0k; assumption.
    - intros e N. rewrite B by (intros C; apply N; right; right; exact C). rewrite !amp_set. destruct (Nat.eqb_spec e eE) as [X|X]; [exfalso; apply N; right; left; congruence|]. destruct (Nat.eqb_spec e eA) as [Y|Y]; [exfalso; apply N; left; congruence|]. apply OUT. exact N.
  Qed.
End End.

Lemma Joint : forall axis flux err col supp solve sqrtf dblmin (offs : bool) o es s, exact solve -> 0 < dblmin -> es <> [] -> supp es <> [] -> NoDup es -> (forall i, In i (supp es) -> ~ err i == 0) ->
  (length es + (if offs then 3 else 0) <= length (supp es))%nat ->
  exists r a p, fitAmplitudesLinSolve axis flux err col supp solve sqrtf dblmin offs o es [] s = Ok r /\ best_joint axis flux err (col o) offs es (supp es) a p /\
    r_amps r = a /\ has_amps (r_s r) es a /\ (offs = true -> forall e, In e es -> s_poly (r_s r) e = p) /\ only es s (r_s r) /\ (r_pos r = true <-> forall v, In v a -> 0 <= v).
Proof.
  intros axis flux err col supp solve sqrtf dblmin offs o es s EX MIN NE NX ND ER RK.
  destruct (Linear axis flux err col supp solve sqrtf dblmin offs EX MIN o es [] s NE NX ND (NoDup_nil nat) (fun i (C : In i []) => match C with end) ER) as (fit & FI & L & _). cbn in FI. subst fit.
  destruct (L RK) as (r & a & p & E & BJ & EA & _ & HA & _ & HP & OUT & PI & PO & _). exists r, a, p. split; [exact E|]. split; [exact BJ|]. split; [exact EA|]. split; [exact HA|].
  split; [intros Z e I; rewrite (PI e I), Z; reflexivity|]. split; [intros e N; destruct (OUT e N) as (A & B); split; [exact A|split; [exact B|apply PO; exact N]]|exact HP].
Qed.
