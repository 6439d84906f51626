(** C69, proofs: the positive fit, the offsets, the Balmer lines. *)
From Coq Require Import Qabs Lqa.
From Verif Require Import Base MeikModel SvdModel SvdSpec SvdProofs.
Open Scope Q_scope.

(** * clipping *)
Lemma kept_cons e es x a : kept (e :: es) (x :: a) = if Qltb x 0 then kept es a else e :: kept es a.
Proof. unfold kept. cbn [combine filter snd]. destruct (Qltb x 0); reflexivity. Qed.
Lemma kept_in es : forall a e, In e (kept es a) -> In e es.
Proof. intros a e I. unfold kept in I. apply in_map_iff in I. destruct I as ([e' x] & <- & F). apply filter_In in F. exact (in_combine_l _ _ _ _ (proj1 F)). Qed.
Lemma clip_spec es : NoDup es -> forall a sd s i, length a = length es -> length sd = length es ->
  exists s' l, clip s i es a sd = (s', l) /\ Forall2 (fun k e => (i <= k)%nat /\ nth_error es (k - i) = Some e) l (kept es a) /\ NoDup l /\ (forall k, In k l -> (i <= k)%nat) /\
    only es s s' /\ (forall e, s_poly s' e = s_poly s e) /\ s_off s' = s_off s /\
    (forall j e v, nth_error es j = Some e -> nth_error a j = Some v -> (v < 0 -> s_amp s' e = Some 0) /\ (0 <= v -> s_amp s' e = s_amp s e /\ In e (kept es a))).
Proof.
  induction es as [|e es IH]; intros ND [|x a] [|d sd] s i La Ld; try discriminate; cbn [clip].
  - exists s, []. split; [reflexivity|]. split; [constructor|]. split; [constructor|]. split; [intros k []|]. split; [apply only_refl|]. split; [reflexivity|]. split; [reflexivity|]. intros [|j] e v H; discriminate.
  - inversion ND as [|? ? Ne NDt]; subst. cbn [length] in La, Ld. rewrite kept_cons. destruct (Qltb_spec x 0) as [X|X].
    + destruct (IH NDt a sd (SetElementAmplitude s e (Some 0) d) (S i)) as (s' & l & E & F & N & B & O & P & OF & V); [lia|lia|]. exists s', l. split; [exact E|]. split; [|split; [exact N|split; [|split; [|split; [|split]]]]].
      * clear - F. induction F as [|k e' ks fs (K1 & K2) F IH]; constructor; [|exact IH]. split; [lia|]. replace (k - i)%nat with (S (k - S i)) by lia. exact K2.
      * intros k K. specialize (B k K). lia.
      * eapply only_trans; [apply only_set; left; reflexivity|]. apply (only_incl es); [intros; right; assumption|exact O].
      * intros e'. rewrite P. reflexivity.
      * rewrite OF. reflexivity.
      * intros [|j] e' v He Hv; cbn [nth_error] in He, Hv.
        -- inversion He; inversion Hv; subst. split; [intros _|intros C; lra]. destruct (O e' Ne) as (-> & _). cbn. unfold upd. rewrite Nat.eqb_refl. reflexivity.
        -- destruct (V j e' v He Hv) as (V1 & V2). split; [exact V1|]. intros C. destruct (V2 C) as (V3 & V4). split; [|exact V4]. rewrite V3. cbn. unfold upd.
           destruct (Nat.eqb_spec e' e) as [->|]; [exfalso; apply Ne; eapply nth_error_In; exact He|reflexivity].
    + destruct (IH NDt a sd s (S i)) as (s' & l & E & F & N & B & O & P & OF & V); [lia|lia|]. rewrite E. exists s', (i :: l). split; [reflexivity|]. split; [|split; [|split; [|split; [|split; [|split]]]]].
      * constructor; [split; [lia|rewrite Nat.sub_diag; reflexivity]|]. clear - F. induction F as [|k e' ks fs (K1 & K2) F IH]; constructor; [|exact IH]. split; [lia|]. replace (k - i)%nat with (S (k - S i)) by lia. exact K2.
      * constructor; [|exact N]. intros I. specialize (B i I). lia.
      * intros k [<-|K]; [lia|]. specialize (B k K). lia.
      * apply (only_incl es); [intros; right; assumption|exact O].
      * exact P.
      * exact OF.
      * intros [|j] e' v He Hv; cbn [nth_error] in He, Hv.
        -- inversion He; inversion Hv; subst. split; [intros C; lra|intros _]. destruct (O e' Ne) as (-> & _). split; [reflexivity|left; reflexivity].
        -- destruct (V j e' v He Hv) as (V1 & V2). split; [exact V1|]. intros C. destruct (V2 C) as (V3 & V4). split; [exact V3|right; exact V4].
Qed.
Lemma kept_nodup es : NoDup es -> forall a, NoDup (kept es a).
Proof.
  intros ND. induction ND as [|e es Ne ND IH]; intros a; [constructor|]. destruct a as [|x a]; [constructor|]. rewrite kept_cons. destruct (Qltb x 0); [apply IH|]. constructor; [|apply IH]. intros I. apply Ne. exact (kept_in _ _ _ I).
Qed.
Lemma F2_fun (es idx a b : list nat) : Forall2 (fun i e => nth_error es i = Some e) idx a -> Forall2 (fun k e => (0 <= k)%nat /\ nth_error es (k - 0) = Some e) idx b -> a = b.
Proof. intros F. revert b. induction F as [|i e is fs H F IH]; intros b G; inversion G as [|? e' ? gs (_ & H') G']; subst; [reflexivity|]. rewrite Nat.sub_0_r in H'. f_equal; [congruence|apply IH; exact G']. Qed.

Section Pos.
  Variables (axis flux err cont : nat -> Q) (col : option nat -> nat -> nat -> Q) (supp : list nat -> list nat) (solve : nat -> list obs -> list Q * list Q) (sqrtf : Q -> Q)
    (single : option nat -> nat -> option Q * option Q) (dblmin : Q) (offs : bool).
  Hypothesis EX : exact solve.
  Hypothesis MIN : 0 < dblmin.
  Notation LIN := (fitAmplitudesLinSolve axis flux err col supp solve sqrtf dblmin offs).
  Notation POS := (fitAmplitudesLinSolvePositive axis flux err col supp solve sqrtf single dblmin offs).
  Lemma fitSingle_amp o s e : s_amp (fitSingle single o s e) e = fst (single o e) /\ only [e] s (fitSingle single o s e) /\ (forall e', s_poly (fitSingle single o s e) e' = s_poly s e') /\ s_off (fitSingle single o s e) = s_off s.
  Proof. unfold fitSingle. destruct (single o e) as [x d]. cbn [fst]. split; [cbn; unfold upd; rewrite Nat.eqb_refl; reflexivity|]. split; [apply only_set; left; reflexivity|]. split; reflexivity. Qed.
  Lemma refit_spec o es : forall pos fit a sd s, Forall2 (fun i e => nth_error es i = Some e) pos fit -> NoDup fit -> length a = length fit -> length sd = length fit ->
    exists s', refit single o es s pos a sd = Ok s' /\ only fit s s' /\ (forall e, s_poly s' e = s_poly s e) /\ s_off s' = s_off s /\
      forall j e v, nth_error fit j = Some e -> nth_error a j = Some v -> (0 < v -> s_amp s' e = fst (single o e)) /\ (v <= 0 -> s_amp s' e = Some 0).
  Proof.
    intros pos fit a sd s F. revert a sd s. induction F as [|i e pos fit H F IH]; intros [|x a] [|d sd] s ND La Ld; try discriminate; cbn [refit].
    - exists s. split; [reflexivity|]. split; [apply only_refl|]. split; [reflexivity|]. split; [reflexivity|]. intros [|j] e v C; discriminate.
    - inversion ND as [|? ? Ne NDt]; subst. unfold vget. rewrite H. cbn [rbind].
      set (s1 := if Qltb 0 x then fitSingle single o s e else SetElementAmplitude s e (Some 0) d).
      assert (S1 : only [e] s s1 /\ (forall e', s_poly s1 e' = s_poly s e') /\ s_off s1 = s_off s /\ (0 < x -> s_amp s1 e = fst (single o e)) /\ (x <= 0 -> s_amp s1 e = Some 0)).
      { unfold s1. destruct (Qltb_spec 0 x) as [X|X].
        - destruct (fitSingle_amp o s e) as (A & B & C & D). split; [exact B|]. split; [exact C|]. split; [exact D|]. split; [intros _; exact A|intros Y; lra].
        - split; [apply only_set; left; reflexivity|]. split; [reflexivity|]. split; [reflexivity|]. split; [intros Y; lra|]. intros _. cbn. unfold upd. rewrite Nat.eqb_refl. reflexivity. }
      destruct S1 as (A & B & C & D1 & D2). destruct (IH a sd s1 NDt) as (s' & E & O & P & OF & V); [cbn in La; lia|cbn in Ld; lia|]. exists s'. split; [exact E|]. split; [|split; [|split]].
      + eapply only_trans; [apply (only_incl [e]); [intros y [<-|[]]; left; reflexivity|exact A]|]. apply (only_incl fit); [intros; right; assumption|exact O].
      + intros e'. rewrite P. apply B.
      + congruence.
      + intros [|j] e' v He Hv; cbn [nth_error] in He, Hv; [|exact (V j e' v He Hv)]. inversion He; inversion Hv; subst. destruct (O e' Ne) as (-> & _). auto.
  Qed.
  Definition positive_result (o : option nat) (es : list nat) (s s' : sst) : Prop :=
    exists a p, best_joint axis flux err (col o) offs es (supp es) a p /\
      ((forall v, In v a -> 0 <= v) -> has_amps s' es a /\ (offs = true -> forall e, In e es -> s_poly s' e = p)) /\
      ((exists v, In v a /\ v < 0) ->
         (forall j e v, nth_error es j = Some e -> nth_error a j = Some v -> v < 0 -> s_amp s' e = Some 0) /\
         (forall e, kept es a = [e] -> offs = false -> s_amp s' e = fst (single o e)) /\
         (kept es a <> [] -> (length (kept es a) <> 1%nat \/ offs = true) ->
            exists a2 p2, best_joint axis flux err (col o) offs (kept es a) (supp es) a2 p2 /\ (offs = true -> forall e, In e es -> s_poly s' e = p2) /\
              ((forall v, In v a2 -> 0 <= v) -> has_amps s' (kept es a) a2) /\
              ((exists v, In v a2 /\ v < 0) -> forall j e v, nth_error (kept es a) j = Some e -> nth_error a2 j = Some v -> (0 < v -> s_amp s' e = fst (single o e)) /\ (v <= 0 -> s_amp s' e = Some 0)))).
  Lemma has_amps_nth s es a j e v : has_amps s es a -> nth_error es j = Some e -> nth_error a j = Some v -> s_amp s e = Some v.
  Proof. unfold has_amps. intros H E V. pose proof (map_nth_error (s_amp s) _ _ E) as X. rewrite H in X. rewrite (map_nth_error Some _ _ V) in X. congruence. Qed.
  Lemma Positive_ranked o es s : es <> [] -> supp es <> [] -> NoDup es -> (forall i, In i (supp es) -> ~ err i == 0) -> (nddl offs es <= length (supp es))%nat ->
    exists s', POS o es s = Ok s' /\ only es s s' /\ s_off s' = s_off s /\ positive_result o es s s' /\
      ((forall e, not_negative (fst (single o e))) -> forall e, In e es -> not_negative (s_amp s' e)).
  Proof.
    intros NE NX ND ER RK. unfold fitAmplitudesLinSolvePositive.
    destruct (Linear axis flux err col supp solve sqrtf dblmin offs EX MIN o es [] s NE NX ND (NoDup_nil _) (fun i C => match C with end) ER) as (fit & FI & L1 & _). cbn in FI. subst fit.
    destruct (L1 RK) as (r & a & p & -> & BJ & EA & LE & HA & HS & HP & NF & PI & PO & OF). cbn [rbind]. pose proof (proj1 BJ) as La.
    assert (OR : only es s (r_s r)). { intros e N. destruct (NF e N) as (A & B). auto. }
    destruct (r_pos r) eqn:RP.
    - exists (r_s r). split; [reflexivity|]. split; [exact OR|]. split; [exact OF|]. pose proof (proj1 HP eq_refl) as PV. split.
      + exists a, p. split; [exact BJ|]. split; [intros _; split; [exact HA|]; intros Z e I; rewrite (PI e I), Z; reflexivity|]. intros (v & V1 & V2). specialize (PV v V1). lra.
      + intros _ e I. apply In_nth_error in I. destruct I as (j & J). pose proof (nth_error_len _ _ _ J) as LJ. destruct (nth_error_lt a j) as (v & V); [lia|]. rewrite (has_amps_nth _ _ _ _ _ _ HA J V). cbn. apply PV. eapply nth_error_In; exact V.
    - assert (NP : ~ (forall v, In v a -> 0 <= v)) by (intros C; apply HP in C; congruence).
      destruct (clip_spec es ND (r_amps r) (r_errs r) (r_s r) 0) as (s1 & pos & EC & F & NDp & _ & O1 & P1 & OF1 & V1); [congruence|congruence|]. rewrite EC. rewrite EA in *.
      assert (FK : Forall2 (fun i e => nth_error es i = Some e) pos (kept es a)). { clear - F. induction F as [|k e ks fs (_ & K) F IH]; constructor; [rewrite Nat.sub_0_r in K; exact K|exact IH]. }
      assert (O2 : only es s s1) by (eapply only_trans; [exact OR|exact O1]).
      (* every element with a non-negative amplitude is kept *)
      assert (SPLIT : forall e, In e es -> s_amp s1 e = Some 0 \/ In e (kept es a)).
      { intros e I. apply In_nth_error in I. destruct I as (j & J). pose proof (nth_error_len _ _ _ J) as LJ. destruct (nth_error_lt a j) as (v & V); [lia|]. destruct (V1 j e v J V) as (X & Y). destruct (Qlt_le_dec v 0) as [C|C]; [left; exact (X C)|right; exact (proj2 (Y C))]. }
      assert (NEGK : forall j e v, nth_error es j = Some e -> nth_error a j = Some v -> v < 0 -> ~ In e (kept es a)).
      { intros j e v J V C I. unfold kept in I. apply in_map_iff in I. destruct I as ([e' x] & E' & I). cbn in E'. subst e'. apply filter_In in I. destruct I as (I & X). cbn [snd] in X.
        apply In_nth_error in I. destruct I as (k & K). assert (K2 : nth_error es k = Some e /\ nth_error a k = Some x). { clear - K. revert a k K. induction es as [|y es IH]; intros [|z a] [|k] K; try discriminate; cbn in *; [inversion K; auto|apply IH; exact K]. }
        destruct K2 as (K1 & K2). assert (k = j) by (apply (proj1 (NoDup_nth_error es) ND); [apply nth_error_Some; congruence|congruence]). subst k. rewrite V in K2. inversion K2; subst. destruct (Qltb_spec x 0); [discriminate|lra]. }
      destruct pos as [|i t].
      + exists s1. split; [reflexivity|]. split; [exact O2|]. split; [congruence|]. assert (KN : kept es a = []) by (inversion FK; reflexivity). split.
        * exists a, p. split; [exact BJ|]. split; [intros C; exfalso; exact (NP C)|]. intros _. split; [intros j e v J V; apply (V1 j e v J V)|]. split; [intros e K; congruence|]. intros K. congruence.
        * intros _ e I. destruct (SPLIT e I) as [->|K]; [cbn; lra|rewrite KN in K; destruct K].
      + destruct (negb offs && match t with [] => true | _ => false end)%bool eqn:ONE.
        * apply andb_true_iff in ONE. destruct ONE as (OFS & TN). apply negb_true_iff in OFS. destruct t; [|discriminate]. inversion FK as [|? e0 ? ? N0 FN EK1 EK2]; subst. inversion FN; subst. assert (EK : kept es (r_amps r) = [e0]) by congruence. unfold vget. rewrite N0. cbn [rbind].
          destruct (fitSingle_amp o s1 e0) as (A & B & C & D). assert (I0 : In e0 es) by (eapply nth_error_In; exact N0).
          exists (fitSingle single o s1 e0). split; [reflexivity|]. split; [eapply only_trans; [exact O2|]; apply (only_incl [e0]); [intros y [<-|[]]; exact I0|exact B]|]. split; [congruence|]. split.
          -- exists (r_amps r), p. split; [exact BJ|]. split; [intros X; exfalso; exact (NP X)|]. intros _. split; [|split].
             ++ intros j e v J V X. assert (NK : ~ In e (kept es (r_amps r))) by (exact (NEGK j e v J V X)). rewrite EK in NK. destruct (B e NK) as (-> & _). apply (V1 j e v J V). exact X.
             ++ intros e K _. assert (e = e0) by congruence. subst e. exact A.
             ++ intros _ [K|K]; [rewrite EK in K; cbn in K; lia|congruence].
          -- intros HS1 e I. destruct (Nat.eq_dec e e0) as [->|DE]; [rewrite A; apply HS1|]. assert (NK : ~ In e [e0]) by (intros [K|[]]; congruence). destruct (B e NK) as (-> & _).
             destruct (SPLIT e I) as [->|K]; [cbn; lra|]. rewrite EK in K. contradiction.
        * set (pos := i :: t) in *. assert (NK : kept es a <> []) by (intros C; rewrite C in FK; inversion FK).
          assert (BI : forall k, In k pos -> (k < length es)%nat). { intros k K. clear - FK K. induction FK as [|x e xs fs X FK IH]; [destruct K|]. destruct K as [<-|K]; [exact (nth_error_len _ _ _ X)|apply IH; exact K]. }
          destruct (Linear axis flux err col supp solve sqrtf dblmin offs EX MIN o es pos s1 NE NX ND NDp BI ER) as (fit & FI & M1 & _). cbn in FI. fold pos in FI.
          assert (EF : fit = kept es a) by (apply (F2_fun es pos); [exact FI|exact F]). subst fit.
          assert (RK2 : (nddl offs (kept es a) <= length (supp es))%nat).
          { unfold nddl in *. assert (length (kept es a) <= length es)%nat; [|lia]. unfold kept. rewrite map_length. clear. revert a. induction es as [|x es IH]; intros [|y a]; cbn [combine filter length]; [lia|lia|cbn; lia|]. destruct (negb (Qltb (snd (x, y)) 0)); cbn [length]; specialize (IH a); lia. }
          destruct (M1 RK2) as (r2 & a2 & p2 & -> & BJ2 & EA2 & LE2 & HA2 & HS2 & HP2 & NF2 & PI2 & PO2 & OF2). cbn [rbind]. pose proof (proj1 BJ2) as La2.
          assert (OR2 : only es s1 (r_s r2)). { intros e N. destruct (NF2 e) as (X & Y); [intros K; apply N; exact (kept_in _ _ _ K)|]. split; [exact X|]. split; [exact Y|exact (PO2 e N)]. }
          assert (O3 : only es s (r_s r2)) by (eapply only_trans; [exact O2|exact OR2]).
          assert (NEG2 : forall j e v, nth_error es j = Some e -> nth_error a j = Some v -> v < 0 -> s_amp (r_s r2) e = Some 0).
          { intros j e v J V X. destruct (NF2 e (NEGK j e v J V X)) as (-> & _). apply (V1 j e v J V). exact X. }
          assert (SPL2 : forall e, In e es -> s_amp (r_s r2) e = Some 0 \/ In e (kept es a)).
          { intros e I. destruct (in_dec Nat.eq_dec e (kept es a)) as [K|K]; [right; exact K|left]. destruct (SPLIT e I) as [X|X]; [|contradiction]. destruct (NF2 e K) as (-> & _). exact X. }
          destruct (r_pos r2) eqn:RP2.
          -- exists (r_s r2). split; [reflexivity|]. split; [exact O3|]. split; [congruence|]. pose proof (proj1 HP2 eq_refl) as PV. split.
             ++ exists a, p. split; [exact BJ|]. split; [intros X; exfalso; exact (NP X)|]. intros _. split; [exact NEG2|]. split.
                ** intros e K OFS. exfalso. rewrite K in FI. unfold pos in FI. inversion FI as [|? ? ? ? _ FN]; subst. inversion FN; subst. cbn in ONE. congruence.
                ** intros _ _. exists a2, p2. split; [exact BJ2|]. split; [intros Z e I; rewrite (PI2 e I), Z; reflexivity|]. split; [intros _; exact HA2|]. intros (v & X & Y). specialize (PV v X). lra.
             ++ intros _ e I. destruct (SPL2 e I) as [->|K]; [cbn; lra|]. apply In_nth_error in K. destruct K as (j & J). pose proof (nth_error_len _ _ _ J) as LJ. destruct (nth_error_lt a2 j) as (v & V); [lia|]. rewrite (has_amps_nth _ _ _ _ _ _ HA2 J V). cbn. apply PV. eapply nth_error_In; exact V.
          -- assert (NP2 : ~ (forall v, In v a2 -> 0 <= v)) by (intros C; apply HP2 in C; congruence).
             destruct (refit_spec o es pos (kept es a) (r_amps r2) (r_errs r2) (r_s r2) FI (kept_nodup es ND a)) as (s' & -> & O4 & P4 & OF4 & V4); [congruence|congruence|]. rewrite EA2 in *.
             exists s'. split; [reflexivity|]. split; [eapply only_trans; [exact O3|]; apply (only_incl (kept es a)); [apply kept_in|exact O4]|]. split; [congruence|]. split.
             ++ exists a, p. split; [exact BJ|]. split; [intros X; exfalso; exact (NP X)|]. intros _. split; [intros j e v J V X; destruct (O4 e (NEGK j e v J V X)) as (-> & _); exact (NEG2 j e v J V X)|]. split.
                ** intros e K OFS. exfalso. rewrite K in FI. unfold pos in FI. inversion FI as [|? ? ? ? _ FN]; subst. inversion FN; subst. cbn in ONE. congruence.
                ** intros _ _. exists a2, p2. split; [exact BJ2|]. split; [intros Z e I; rewrite P4, (PI2 e I), Z; reflexivity|]. split; [intros X; exfalso; exact (NP2 X)|]. intros _. exact V4.
             ++ intros HS1 e I. destruct (in_dec Nat.eq_dec e (kept es a)) as [K|K].
                ** apply In_nth_error in K. destruct K as (j & J). pose proof (nth_error_len _ _ _ J) as LJ. destruct (nth_error_lt a2 j) as (v & V); [lia|]. destruct (V4 j e v J V) as (X & Y). destruct (Qlt_le_dec 0 v) as [C|C]; [rewrite (X C); apply HS1|rewrite (Y C); cbn; lra].
                ** destruct (O4 e K) as (-> & _). destruct (SPL2 e I) as [->|C]; [cbn; lra|contradiction].
  Qed.
  Lemma Positive_poor o es s : es <> [] -> supp es <> [] -> NoDup es -> (forall i, In i (supp es) -> ~ err i == 0) -> (length (supp es) < nddl offs es)%nat ->
    exists s', POS o es s = Ok s' /\ only es s s' /\ s_off s' = s_off s /\ forall e, In e es -> s_amp s' e = Some 0 /\ s_std s' e = None.
  Proof.
    intros NE NX ND ER RK. unfold fitAmplitudesLinSolvePositive.
    destruct (Linear axis flux err col supp solve sqrtf dblmin offs EX MIN o es [] s NE NX ND (NoDup_nil _) (fun i C => match C with end) ER) as (fit & FI & _ & L1). cbn in FI. subst fit.
    destruct (L1 RK) as (r & -> & RP & A & B & C & D). cbn [rbind]. rewrite RP. exists (r_s r). split; [reflexivity|]. split; [exact B|]. split; [exact D|exact A].
  Qed.

  (** * the fit does not depend on the previous amplitudes *)
  Definition agree (P : nat -> Prop) (s s2 : sst) : Prop := forall e, P e -> s_amp s e = s_amp s2 e.
  Lemma agree_set P s s2 e x d : agree P s s2 -> agree (fun y => P y \/ y = e) (SetElementAmplitude s e x d) (SetElementAmplitude s2 e x d).
  Proof. intros A y Y. cbn. unfold upd. destruct (Nat.eqb_spec y e); [reflexivity|]. destruct Y as [Y|Y]; [apply A; exact Y|contradiction]. Qed.
  Lemma agree_weak (P R : nat -> Prop) s s2 : (forall e, P e -> R e) -> agree R s s2 -> agree P s s2.
  Proof. intros I A e Pe. apply A. apply I. exact Pe. Qed.
  Lemma agree_fold l x d : forall P s s2, agree P s s2 -> agree (fun y => P y \/ In y l) (fold_left (fun s e => SetElementAmplitude s e x d) l s) (fold_left (fun s e => SetElementAmplitude s e x d) l s2).
  Proof.
    induction l as [|e t IH]; intros P s s2 A; cbn [fold_left]; [intros y [Y|[]]; apply A; exact Y|]. eapply agree_weak; [|apply IH; apply agree_set; exact A]. intros y [Y|[->|Y]]; cbn; auto.
  Qed.
  Lemma agree_all fit : forall a sd P s s2, agree P s s2 -> agree P (set_all s fit a sd) (set_all s2 fit a sd).
  Proof.
    induction fit as [|e t IH]; intros [|x a] [|d sd] P s s2 A; cbn [set_all]; try exact A. apply IH. apply (agree_weak P (fun y => P y \/ y = e)); [intros y Y; left; exact Y|apply agree_set; exact A].
  Qed.
  Lemma agree_poly P s s2 es p : agree P s s2 -> agree P (set_poly s es p) (set_poly s2 es p).
  Proof. intros A e Pe. destruct (set_poly_spec es p s) as (-> & _). destruct (set_poly_spec es p s2) as (-> & _). apply A. exact Pe. Qed.
  Lemma lin_agree o es idx P s s2 r : agree P s s2 -> LIN o es idx s = Ok r -> exists r2, LIN o es idx s2 = Ok r2 /\ r_amps r2 = r_amps r /\ r_errs r2 = r_errs r /\ r_pos r2 = r_pos r /\
    agree P (r_s r) (r_s r2) /\ (idx = [] -> agree (fun e => In e es) (r_s r) (r_s r2)).
  Proof.
    intros A. unfold fitAmplitudesLinSolve. destruct es as [|e0 es0]; [discriminate|]. generalize (e0 :: es0). clear e0 es0. intros es. destruct (supp es) as [|x0 xs0]; [discriminate|]. generalize (x0 :: xs0). clear x0 xs0. intros xs.
    assert (FT : idx = [] -> match idx with [] => Ok es | _ :: _ => mapr (vget es) idx end = Ok es) by (intros ->; reflexivity).
    destruct (match idx with [] => Ok es | _ :: _ => mapr (vget es) idx end) as [fit| |]; [|discriminate|discriminate]. cbn [rbind].
    destruct (Nat.ltb (length xs) (length fit + (if offs then 3 else 0))).
    - intros H. inversion H; subst r; clear H. eexists. split; [reflexivity|]. cbn [r_amps r_errs r_pos r_s]. split; [reflexivity|]. split; [reflexivity|]. split; [reflexivity|].
      pose proof (agree_fold es (Some 0) None P s s2 A) as B. split; [destruct offs; [apply agree_poly|]; (eapply agree_weak; [|exact B]; let y := fresh in let Y := fresh in intros y Y; cbv beta; auto)|intros _; destruct offs; [apply agree_poly|]; (eapply agree_weak; [|exact B]; let y := fresh in let Y := fresh in intros y Y; cbv beta; auto)].
    - destruct (solve _ _) as [c var]. intros H. inversion H; subst r; clear H. eexists. split; [reflexivity|]. cbn [r_amps r_errs r_pos r_s]. split; [reflexivity|]. split; [reflexivity|]. split; [reflexivity|].
      pose proof (agree_fold fit (Some 1) (Some 0) P s s2 A) as B. split; [destruct offs; [apply agree_poly|]; apply agree_all; (eapply agree_weak; [|exact B]; let y := fresh in let Y := fresh in intros y Y; cbv beta; auto)|].
      intros Z. specialize (FT Z). inversion FT; subst fit. destruct offs; [apply agree_poly|]; apply agree_all; (eapply agree_weak; [|exact B]; let y := fresh in let Y := fresh in intros y Y; cbv beta; auto).
  Qed.
  Lemma clip_agree es : forall a sd P s s2 i, agree P s s2 -> agree P (fst (clip s i es a sd)) (fst (clip s2 i es a sd)) /\ snd (clip s i es a sd) = snd (clip s2 i es a sd).
  Proof.
    induction es as [|e t IH]; intros [|x a] [|d sd] P s s2 i A; cbn [clip]; try (split; [exact A|reflexivity]).
    destruct (Qltb x 0); [apply IH; apply (agree_weak P (fun y => P y \/ y = e)); [intros y Y; left; exact Y|apply agree_set; exact A]|]. destruct (IH a sd P s s2 (S i) A) as (B & C). destruct (clip s (S i) t a sd). destruct (clip s2 (S i) t a sd). cbn [fst snd] in *. split; [exact B|congruence].
  Qed.
  Lemma single_agree o P s s2 e : agree P s s2 -> agree P (fitSingle single o s e) (fitSingle single o s2 e).
  Proof. intros A. unfold fitSingle. destruct (single o e). apply (agree_weak P (fun y => P y \/ y = e)); [intros y Y; left; exact Y|apply agree_set; exact A]. Qed.
  Lemma refit_agree o es P : forall pos a sd s s2 s', agree P s s2 -> refit single o es s pos a sd = Ok s' -> exists s2', refit single o es s2 pos a sd = Ok s2' /\ agree P s' s2'.
  Proof.
    induction pos as [|i t IH]; intros a sd s s2 s' A; cbn [refit]; [intros H; inversion H; subst; eauto|]. destruct a as [|x a]; [intros H; inversion H; subst; eauto|]. destruct sd as [|d sd]; [intros H; inversion H; subst; eauto|].
    destruct (vget es i) as [e| |]; [|discriminate|discriminate]. cbn [rbind]. apply IH. destruct (Qltb 0 x); [apply single_agree; exact A|]. apply (agree_weak P (fun y => P y \/ y = e)); [intros y Y; left; exact Y|apply agree_set; exact A].
  Qed.
  Lemma Forgets o es s s2 s' : POS o es s = Ok s' -> exists s2', POS o es s2 = Ok s2' /\ forall e, In e es -> s_amp s2' e = s_amp s' e.
  Proof.
    unfold fitAmplitudesLinSolvePositive. destruct (LIN o es [] s) as [r| |] eqn:L; [|discriminate|discriminate]. cbn [rbind]. intros H.
    destruct (lin_agree o es [] (fun _ => False) s s2 r) as (r2 & -> & E1 & E2 & E3 & _ & AG); [intros e []|exact L|]. specialize (AG eq_refl). cbn [rbind]. rewrite E1, E2, E3.
    set (P := fun e => In e es) in *. enough (G : exists s2', (if r_pos r then Ok (r_s r2) else let (s1, pos) := clip (r_s r2) 0 es (r_amps r) (r_errs r) in
        match pos with [] => Ok s1 | i :: t => if (negb offs && match t with [] => true | _ :: _ => false end)%bool then do e <- vget es i; Ok (fitSingle single o s1 e)
          else do r3 <- LIN o es pos s1; if r_pos r3 then Ok (r_s r3) else refit single o es (r_s r3) pos (r_amps r3) (r_errs r3) end) = Ok s2' /\ agree P s' s2').
    { destruct G as (s2' & G1 & G2). exists s2'. split; [exact G1|]. intros e I. symmetry. apply G2. exact I. }
    destruct (r_pos r); [inversion H; subst; eauto|]. destruct (clip_agree es (r_amps r) (r_errs r) P (r_s r) (r_s r2) 0 AG) as (CA & CB).
    destruct (clip (r_s r) 0 es (r_amps r) (r_errs r)) as [s1 pos]. destruct (clip (r_s r2) 0 es (r_amps r) (r_errs r)) as [t1 pos']. cbn [fst snd] in CA, CB. subst pos'.
    destruct pos as [|i t]; [inversion H; subst; eauto|]. destruct (negb offs && match t with [] => true | _ :: _ => false end)%bool.
    - destruct (vget es i) as [e| |]; [|discriminate|discriminate]. cbn [rbind] in *. inversion H; subst. eexists. split; [reflexivity|]. apply single_agree. exact CA.
    - destruct (LIN o es (i :: t) s1) as [r3| |] eqn:L3; [|discriminate|discriminate]. cbn [rbind] in H. destruct (lin_agree o es (i :: t) P s1 t1 r3 CA L3) as (r4 & -> & F1 & F2 & F3 & AG4 & _). cbn [rbind]. rewrite F1, F2, F3.
      destruct (r_pos r3); [inversion H; subst; eauto|]. eapply refit_agree; [exact AG4|exact H].
  Qed.

  (** * the offsets *)
  Notation MERIT := (merit flux err cont col supp sqrtf).
  Lemma drawn_agree o es s s2 i : agree (fun e => In e es) s s2 -> drawn_lines col o es s i = drawn_lines col o es s2 i.
  Proof. induction es as [|e t IH]; intros A; cbn [drawn_lines]; [reflexivity|]. rewrite (A e (or_introl eq_refl)), IH; [reflexivity|]. intros y Y. apply A. right. exact Y. Qed.
  Lemma merit_agree o es s s2 : agree (fun e => In e es) s s2 -> MERIT o es s = MERIT o es s2.
  Proof.
    intros A. unfold merit. f_equal. generalize (0, 0). generalize (supp es). induction l as [|i t IH]; intros acc; cbn [residual]; [reflexivity|]. rewrite (drawn_agree o es s s2 i A). apply IH.
  Qed.
  (** the state after the fit at an offset, from the state s0 *)
  Variable s0 : sst.
  Variable es : list nat.
  Hypothesis OKALL : forall o, exists s', POS o es s0 = Ok s'.
  Definition merit_at (i : nat) : option Q := match POS (Some i) es s0 with Ok s' => MERIT (Some i) es s' | _ => None end.
  Lemma pos_at i s : exists s' sF, POS (Some i) es s = Ok s' /\ POS (Some i) es s0 = Ok sF /\ (forall e, In e es -> s_amp s' e = s_amp sF e) /\ MERIT (Some i) es s' = merit_at i.
  Proof.
    destruct (OKALL (Some i)) as (sF & EF). destruct (Forgets (Some i) es s0 s sF EF) as (s' & E & A). exists s', sF. split; [exact E|]. split; [exact EF|]. split; [exact A|]. unfold merit_at. rewrite EF. apply merit_agree. exact A.
  Qed.
  Definition first_min (n : nat) (best : option (Q * nat)) : Prop :=
    match best with
    | None => forall i, (i < n)%nat -> merit_at i = None
    | Some (v, b) => (b < n)%nat /\ merit_at b = Some v /\ forall i w, (i < n)%nat -> merit_at i = Some w -> v <= w /\ ((i < b)%nat -> v < w)
    end.
  Lemma loop_spec : forall n i s best, first_min i best -> (i = 0%nat \/ exists sF, POS (Some (i - 1)%nat) es s0 = Ok sF /\ (forall e, In e es -> s_amp s e = s_amp sF e) /\ s_off s = Some (i - 1)%nat) ->
    (forall o s s', POS o es s = Ok s' -> s_off s' = s_off s) ->
    exists s' best', offset_loop axis flux err cont col supp solve sqrtf single dblmin offs es n i s best = Ok (s', best') /\ first_min (i + n) best' /\
      ((i + n = 0)%nat \/ exists sF, POS (Some (i + n - 1)%nat) es s0 = Ok sF /\ (forall e, In e es -> s_amp s' e = s_amp sF e) /\ s_off s' = Some (i + n - 1)%nat).
  Proof.
    induction n as [|n IH]; intros i s best FM LAST OFF; cbn [offset_loop].
    - exists s, best. rewrite Nat.add_0_r. split; [reflexivity|]. split; [exact FM|exact LAST].
    - destruct (pos_at i (setLambdaOffset s i)) as (s1 & sF & E1 & EF & A & M). rewrite E1. cbn [rbind]. pose proof (OFF _ _ _ E1) as O1. cbn [setLambdaOffset s_off] in O1. rewrite M.
      replace (i + S n)%nat with (S i + n)%nat by lia. apply IH; [|right; exists sF; replace (S i - 1)%nat with i by lia; auto|exact OFF].
      destruct (merit_at i) as [v|] eqn:MI.
      + destruct best as [[b j]|]; cbn [first_min] in FM.
        * destruct FM as (F1 & F2 & F3). destruct (Qltb_spec v b) as [L|L]; cbn [first_min].
          -- split; [lia|]. split; [exact MI|]. intros k w K W. destruct (Nat.eq_dec k i) as [->|D]; [rewrite MI in W; inversion W; subst; split; [lra|lia]|]. destruct (F3 k w ltac:(lia) W) as (X & _). split; [lra|intros _; lra].
          -- split; [lia|]. split; [exact F2|]. intros k w K W. destruct (Nat.eq_dec k i) as [->|D]; [rewrite MI in W; inversion W; subst; split; [lra|lia]|]. exact (F3 k w ltac:(lia) W).
        * cbn [first_min]. split; [lia|]. split; [exact MI|]. intros k w K W. destruct (Nat.eq_dec k i) as [->|D]; [rewrite MI in W; inversion W; subst; split; [lra|lia]|]. rewrite (FM k) in W by lia. discriminate.
      + destruct best as [[b j]|]; cbn [first_min] in *.
        * destruct FM as (F1 & F2 & F3). split; [lia|]. split; [exact F2|]. intros k w K W. destruct (Nat.eq_dec k i) as [->|D]; [congruence|]. exact (F3 k w ltac:(lia) W).
        * intros k K. destruct (Nat.eq_dec k i) as [->|D]; [exact MI|apply FM; lia].
  Qed.
  Lemma Offsets n : (forall o s s', POS o es s = Ok s' -> s_off s' = s_off s) -> (0 < n)%nat ->
    exists s' b sF, fitAmplitudesLinSolveAndLambdaOffset axis flux err cont col supp solve sqrtf single dblmin offs n es true s0 = Ok s' /\ s_off s' = Some b /\ (b < n)%nat /\
      POS (Some b) es s0 = Ok sF /\ (forall e, In e es -> s_amp s' e = s_amp sF e) /\
      ((exists v, merit_at b = Some v /\ forall i w, (i < n)%nat -> merit_at i = Some w -> v <= w /\ ((i < b)%nat -> v < w)) \/ (b = (n - 1)%nat /\ forall i, (i < n)%nat -> merit_at i = None)).
  Proof.
    intros OFF N. unfold fitAmplitudesLinSolveAndLambdaOffset. destruct (loop_spec n 0 s0 None) as (s1 & best & E & FM & LAST); [intros i I; lia|left; reflexivity|exact OFF|]. rewrite E. cbn [rbind fst snd]. rewrite Nat.add_0_l in *.
    destruct best as [[v b]|]; cbn [first_min] in FM.
    - destruct FM as (F1 & F2 & F3). destruct (pos_at b (setLambdaOffset s1 b)) as (s' & sF & E' & EF & A & _). exists s', b, sF. split; [exact E'|]. split; [rewrite (OFF _ _ _ E'); reflexivity|]. split; [exact F1|]. split; [exact EF|]. split; [exact A|]. left. eauto.
    - destruct LAST as [C|(sF & EF & A & O)]; [lia|]. exists s1, (n - 1)%nat, sF. split; [reflexivity|]. split; [exact O|]. split; [lia|]. split; [exact EF|]. split; [exact A|]. right. auto.
  Qed.
End Pos.
