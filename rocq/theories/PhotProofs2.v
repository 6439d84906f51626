From Coq Require Import String Reals Qreals.
From Verif Require Import Base F64 SortLib RangeModel RangeSpec RangeProofs MeikModel TplModel TplSpec TplProofs TFitModel TFitSpec TFitProofs TFitProofs2 DetModel PhotModel PhotSpec PhotProofs.
Open Scope Q_scope.

(** * the sums *)
Lemma sums_csum l c : sums l c <-> ceq c (csum l).
Proof.
  assert (H : sums l (csum l)).
  { unfold sums. induction l as [|[[y t] e] l (A & B & C)]; [cbn; (split; [|split]); reflexivity|]. cbn [csum cadd term c_x c_t c_s map].
    assert (D : forall a b, a * b * (1 / (e * e)) == a / e * (b / e)).
    { intros a b. destruct (Qeq_dec e 0) as [Z|Z]; [|field; auto]. unfold Qdiv. rewrite !Qinv_mult_distr, Z. change (/ 0) with 0. ring. }
    change (sum (?x :: ?r)) with (x + sum r). (split; [|split]); rewrite ?A, ?B, ?C, ?D; reflexivity. }
  destruct H as (A & B & C). unfold sums, ceq. rewrite A, B, C. reflexivity.
Qed.
(** one band: what it adds *)
Definition sample_of (w : Q) (d : pdat) (f : Q) : Q * Q * Q := (p_flux d, f, p_err d / w).
Lemma term_of w d f : ~ w == 0 -> ~ p_err d == 0 -> ceq (mkCross (p_flux d * f * (1 / (p_err d * p_err d) * w * w)) (f * f * (1 / (p_err d * p_err d) * w * w)) (p_flux d * p_flux d * (1 / (p_err d * p_err d)) * w * w)) (term (sample_of w d f)).
Proof. intros W E. unfold ceq, sample_of, term. cbn [c_x c_t c_s]. (split; [|split]); field; auto. Qed.

Definition osum (acc : option cross) (l : list (Q * Q * Q)) (r : option cross) : Prop := match acc, r with Some a, Some c => ceq c (cadd a (csum l)) | _, _ => True end.
Section L.
  Context (cat : catalog) (tpls : smap tpl) (data : smap pdat) (w : Q).
  Hypothesis (Oc : ordered cat) (Ot : ordered tpls) (Od : ordered data) (W : ~ w == 0).
  Lemma loop_step fast bend i n names acc saved p : phot_loop cat tpls data w fast bend i (n :: names) acc saved = Ok p ->
    exists b t v d, bound cat n b /\ bound tpls n t /\ bound data n d /\ IntegrateFlux b (t_flux t) = Ok v /\ ~ p_err d == 0 /\
      phot_loop cat tpls data w fast bend (S i) names
        (match acc, v with Some c, Fin f => Some (mkCross (c_x c + p_flux d * f * (1 / (p_err d * p_err d) * w * w)) (c_t c + f * f * (1 / (p_err d * p_err d) * w * w)) (c_s c + p_flux d * p_flux d * (1 / (p_err d * p_err d)) * w * w)) | _, _ => None end)
        (match saved with None => if (fast && Nat.eqb i bend)%bool then Some acc else None | _ => saved end) = Ok p.
  Proof.
    intro H. cbn [phot_loop] in H. destruct (mget cat n) as [b| |] eqn:Eb; try discriminate. cbn [rbind] in H. destruct (mget tpls n) as [t| |] eqn:Et; try discriminate. cbn [rbind] in H.
    destruct (IntegrateFlux b (t_flux t)) as [v| |] eqn:Ev; try discriminate. cbn [rbind] in H. destruct (mget data n) as [d| |] eqn:Ed; try discriminate. cbn [rbind] in H. destruct (Qeq_bool_spec (p_err d) 0) as [Z|Z]; [discriminate|].
    exists b, t, v, d. apply (mget_bound _ _ _ Oc) in Eb. apply (mget_bound _ _ _ Ot) in Et. apply (mget_bound _ _ _ Od) in Ed. auto 10.
  Qed.
  Lemma none_stays fast bend : forall names i saved p, phot_loop cat tpls data w fast bend i names None saved = Ok p -> fst p = None.
  Proof.
    induction names as [|n names IH]; intros i saved p H; [cbn in H; inversion H; reflexivity|]. apply loop_step in H. destruct H as (b & t & v & d & _ & _ & _ & _ & _ & H). exact (IH _ _ _ H).
  Qed.
  (** a finite result: the samples of all the names *)
  Lemma loop_spec fast bend : forall names i a saved c sv, phot_loop cat tpls data w fast bend i names (Some a) saved = Ok (Some c, sv) ->
    exists s, Forall2 (point cat tpls data w) names s /\ ceq c (cadd a (csum s)) /\
      (forall x, saved = Some x -> sv = Some x) /\
      (saved = None -> (fast = true -> (i <= bend < i + List.length names)%nat -> exists x, sv = Some (Some x) /\ ceq x (cadd a (csum (firstn (bend - i) s)))) /\
         ((fast = false \/ (bend < i)%nat \/ (i + List.length names <= bend)%nat) -> sv = None)).
  Proof.
    induction names as [|n names IH]; intros i a saved c sv H.
    - cbn [phot_loop] in H. inversion H; subst. exists []. split; [constructor|]. split; [unfold ceq, cadd; cbn; (split; [|split]); ring|]. split; [auto|]. intros ->. split; [cbn [List.length]; intros; lia|reflexivity].
    - apply loop_step in H. destruct H as (b & t & v & d & Bb & Bt & Bd & Ev & Ne & H). destruct v as [| | |f]; try (apply none_stays in H; discriminate).
      apply IH in H. destruct H as (s & F & C & S1 & S2). exists (sample_of w d f :: s).
      assert (T := term_of w d f W Ne).
      assert (St : ceq (mkCross (c_x a + p_flux d * f * (1 / (p_err d * p_err d) * w * w)) (c_t a + f * f * (1 / (p_err d * p_err d) * w * w)) (c_s a + p_flux d * p_flux d * (1 / (p_err d * p_err d)) * w * w)) (cadd a (term (sample_of w d f)))).
      { eapply ceq_trans; [|apply cadd_ceq; [apply ceq_refl|exact T]]. unfold ceq, cadd; cbn [c_x c_t c_s]. (split; [|split]); reflexivity. }
      assert (Acc : forall l x, ceq x (cadd (mkCross (c_x a + p_flux d * f * (1 / (p_err d * p_err d) * w * w)) (c_t a + f * f * (1 / (p_err d * p_err d) * w * w)) (c_s a + p_flux d * p_flux d * (1 / (p_err d * p_err d)) * w * w)) (csum l)) -> ceq x (cadd a (csum (sample_of w d f :: l)))).
      { intros l x Hx. eapply ceq_trans; [exact Hx|]. eapply ceq_trans; [apply cadd_ceq; [exact St|apply ceq_refl]|]. cbn [csum]. unfold ceq, cadd; cbn [c_x c_t c_s]. (split; [|split]); ring. }
      split; [|split; [|split]].
      + constructor; [|exact F]. exists b, t, d, f. auto 10.
      + apply Acc. exact C.
      + intros x ->. apply S1. reflexivity.
      + intros ->. cbn [List.length]. destruct fast; cbn [andb] in *.
        * destruct (Nat.eqb_spec i bend) as [->|N].
          -- split; [|intros [X|X]; [discriminate|lia]]. intros _ _. exists a. split; [apply S1; reflexivity|]. rewrite Nat.sub_diag. cbn [firstn csum]. unfold ceq, cadd, czero; cbn [c_x c_t c_s]. (split; [|split]); ring.
          -- destruct (S2 eq_refl) as [P1 P2]. split.
             ++ intros _ Hr. destruct (P1 eq_refl ltac:(lia)) as (x & Ex & Cx). exists x. split; [exact Ex|]. replace (bend - i)%nat with (S (bend - S i)) by lia. cbn [firstn]. apply Acc. exact Cx.
             ++ intros [X|X]; [discriminate|]. apply P2. right. lia.
        * split; [discriminate|]. intros _. apply S2; auto.
  Qed.
  (** it returns when the bands, the templates and the data are there, with non null errors *)
  Lemma loop_total fast bend : forall names i a saved, (forall n, In n names -> exists s, point cat tpls data w n s) -> exists c sv, phot_loop cat tpls data w fast bend i names (Some a) saved = Ok (Some c, sv).
  Proof.
    induction names as [|n names IH]; intros i a saved H; [cbn; eauto|]. destruct (H n (or_introl eq_refl)) as (s & b & t & d & f & Bb & Bt & Bd & Ev & Ne & _).
    cbn [phot_loop]. rewrite (proj2 (mget_bound _ _ _ Oc) Bb), (proj2 (mget_bound _ _ _ Ot) Bt). cbn [rbind]. rewrite Ev. cbn [rbind]. rewrite (proj2 (mget_bound _ _ _ Od) Bd). cbn [rbind]. destruct (Qeq_bool_spec (p_err d) 0) as [Z|Z]; [contradiction|].
    apply IH. intros m Hm. apply H. right. exact Hm.
  Qed.
End L.
Lemma F2_same (cat : catalog) tpls data w names s : ordered cat -> ordered tpls -> ordered data -> Forall2 (point cat tpls data w) names s -> forall s', Forall2 (point cat tpls data w) names s' -> s = s'.
Proof.
  intros Oc Ot Od. induction 1 as [|n x names s P F IH]; intros s' H; inversion H as [|? y ? s2 P' F']; subst; [reflexivity|]. f_equal; [|auto].
  destruct P as (b & t & d & f & Bb & Bt & Bd & Ev & _ & ->), P' as (b' & t' & d' & f' & Bb' & Bt' & Bd' & Ev' & _ & ->).
  apply (mget_bound _ _ _ Oc) in Bb, Bb'. apply (mget_bound _ _ _ Ot) in Bt, Bt'. apply (mget_bound _ _ _ Od) in Bd, Bd'. congruence.
Qed.
Lemma Slow cat tpls data w bend sorted kM kE kept spc cp tot kept' : ordered cat -> ordered tpls -> ordered data -> ~ w == 0 ->
  ComputePhotCrossProducts cat tpls data w false bend sorted kM kE kept spc = Ok (Some cp, tot, kept') ->
  kept' = kept /\ exists s t, Forall2 (point cat tpls data w) sorted s /\ sums s cp /\ tot = Some t /\ forall l, sums l spc -> sums (l ++ s) t.
Proof.
  intros Oc Ot Od W H. unfold ComputePhotCrossProducts in H. cbn [andb] in H. destruct (phot_loop cat tpls data w false bend 0 sorted (Some czero) None) as [[c sv]| |] eqn:E; try discriminate. cbn [rbind fst snd] in H.
  inversion H; subst. clear H. split; [reflexivity|]. destruct (loop_spec _ _ _ _ Oc Ot Od W _ _ _ _ _ _ _ _ E) as (s & F & C & _). exists s. cbn [omap2]. eexists. split; [exact F|]. 
  assert (C' : ceq cp (csum s)) by (eapply ceq_trans; [exact C|]; unfold ceq, cadd, czero; cbn [c_x c_t c_s]; (split; [|split]); ring). split; [apply sums_csum; exact C'|]. split; [reflexivity|]. intros l L. apply sums_csum in L. apply sums_csum. eapply ceq_trans; [|apply ceq_sym, csum_app]. apply cadd_ceq; assumption.
Qed.
Lemma Slow_total cat tpls data w bend sorted kM kE kept spc : ordered cat -> ordered tpls -> ordered data -> ~ w == 0 -> (forall n, In n sorted -> exists s, point cat tpls data w n s) ->
  exists cp t, ComputePhotCrossProducts cat tpls data w false bend sorted kM kE kept spc = Ok (Some cp, Some t, kept).
Proof.
  intros Oc Ot Od W H. unfold ComputePhotCrossProducts. cbn [andb]. destruct (loop_total cat tpls data w Oc Ot Od false bend sorted 0 czero None H) as (c & sv & E). rewrite E. cbn [rbind fst snd omap2]. eauto.
Qed.
Lemma firstn_F2 {A B} (P : A -> B -> Prop) l s n : Forall2 P l s -> Forall2 P (firstn n l) (firstn n s) /\ Forall2 P (skipn n l) (skipn n s).
Proof. intro F. revert n. induction F as [|x y l s Pxy F IH]; intros [|n]; cbn [firstn skipn]; split; try constructor; auto; apply IH. Qed.
(** the sums kept at the first igm index *)
Lemma Kept cat tpls data w bend sorted kE kept spc cp tot kept' : ordered cat -> ordered tpls -> ordered data -> ~ w == 0 -> (kE < List.length kept)%nat ->
  ComputePhotCrossProducts cat tpls data w true bend sorted 0 kE kept spc = Ok (Some cp, tot, kept') ->
  exists s t k, Forall2 (point cat tpls data w) sorted s /\ sums s cp /\ tot = Some t /\ (forall l, sums l spc -> sums (l ++ s) t) /\ nth_error kept' kE = Some (Some k) /\
    (forall j, j <> kE -> nth_error kept' j = nth_error kept j) /\
    ((bend < List.length sorted)%nat -> sums (skipn bend s) k) /\ ((List.length sorted <= bend)%nat -> sums s k).
Proof.
  intros Oc Ot Od W Lk H. unfold ComputePhotCrossProducts in H. cbn [andb Nat.ltb Nat.leb Nat.eqb] in H. destruct (phot_loop cat tpls data w true bend 0 sorted (Some czero) None) as [[c sv]| |] eqn:E; try discriminate. cbn [rbind fst snd] in H.
  destruct (vset kept kE _) as [kept1| |] eqn:V; try discriminate. cbn [rbind fst snd] in H. inversion H; subst. clear H.
  destruct (loop_spec _ _ _ _ Oc Ot Od W _ _ _ _ _ _ _ _ E) as (s & F & C & _ & S2). destruct (S2 eq_refl) as [P1 P2]. clear S2.
  assert (C' : ceq cp (csum s)) by (eapply ceq_trans; [exact C|]; unfold ceq, cadd, czero; cbn [c_x c_t c_s]; (split; [|split]); ring).
  destruct (vset_ok kept kE (omap2 csub (Some cp) (match sv with Some x => x | None => Some czero end)) Lk) as (k2 & Ek & _ & Nk & Ok2). rewrite Ek in V. inversion V; subst k2. clear V.
  assert (Hk : exists k, omap2 csub (Some cp) (match sv with Some x => x | None => Some czero end) = Some k /\ ((bend < List.length sorted)%nat -> sums (skipn bend s) k) /\ ((List.length sorted <= bend)%nat -> sums s k)).
  { destruct (Nat.lt_ge_cases bend (List.length sorted)) as [L|L].
    - destruct (P1 eq_refl ltac:(lia)) as (x & -> & Cx). cbn [omap2]. eexists. split; [reflexivity|]. split; [intros _|intro; lia]. apply sums_csum. rewrite Nat.sub_0_r in Cx.
      pose proof (csum_app (firstn bend s) (skipn bend s)) as (A1 & A2 & A3). rewrite firstn_skipn in A1, A2, A3. destruct C' as (B1 & B2 & B3). destruct Cx as (D1 & D2 & D3). unfold ceq, csub, cadd, czero in *. cbn [c_x c_t c_s] in *. (split; [|split]); [rewrite B1, D1, A1|rewrite B2, D2, A2|rewrite B3, D3, A3]; ring.
    - rewrite P2 by (right; right; lia). cbn [omap2]. eexists. split; [reflexivity|]. split; [intro; lia|intros _]. apply sums_csum. eapply ceq_trans; [|exact C']. unfold ceq, csub, czero; cbn [c_x c_t c_s]. (split; [|split]); ring. }
  destruct Hk as (k & Hk & K1 & K2). rewrite Hk in Nk. exists s. cbn [omap2]. eexists. exists k. split; [exact F|]. split; [apply sums_csum; exact C'|]. split; [reflexivity|]. split; [|auto].
  intros l L. apply sums_csum in L. apply sums_csum. eapply ceq_trans; [|apply ceq_sym, csum_app]. apply cadd_ceq; assumption.
Qed.
Lemma Next cat tpls data w bend sorted kM kE kept spc cp tot kept' k : ordered cat -> ordered tpls -> ordered data -> ~ w == 0 -> (0 < kM)%nat -> nth_error kept kE = Some (Some k) ->
  ComputePhotCrossProducts cat tpls data w true bend sorted kM kE kept spc = Ok (Some cp, tot, kept') ->
  kept' = kept /\ exists s t, Forall2 (point cat tpls data w) (firstn bend sorted) s /\ ceq cp (cadd (csum s) k) /\ tot = Some t /\ ceq t (cadd spc cp).
Proof.
  intros Oc Ot Od W K N H. unfold ComputePhotCrossProducts in H. destruct (Nat.ltb_spec 0 kM) as [_|X]; [|lia]. destruct (Nat.eqb_spec kM 0) as [X|_]; [lia|]. cbn [andb] in H. destruct (phot_loop cat tpls data w true bend 0 (firstn bend sorted) (Some czero) None) as [[c sv]| |] eqn:E; try discriminate. cbn [rbind fst snd] in H.
  unfold vget in H. rewrite N in H. cbn [rbind fst snd] in H. destruct c as [c|]; [|discriminate]. cbn [omap2] in H. inversion H; subst. split; [reflexivity|].
  destruct (loop_spec _ _ _ _ Oc Ot Od W _ _ _ _ _ _ _ _ E) as (s & F & C & _). exists s. eexists. split; [exact F|]. split; [|split; [reflexivity|apply ceq_refl]]. apply cadd_ceq; [|apply ceq_refl]. eapply ceq_trans; [exact C|]. unfold ceq, cadd, czero; cbn [c_x c_t c_s]. (split; [|split]); ring.
Qed.
(** the bands beyond the igm: the same samples *)
Lemma same_points cat tpls tpls' data w : ordered cat -> ordered tpls -> ordered tpls' -> ordered data -> (forall n b, bound cat n b -> exists tr la, NewBand tr la = Ok b) -> forall names s, (forall n, In n names -> same_band tpls tpls' n) -> (forall n, In n names -> exists t, bound tpls' n t) ->
  Forall2 (point cat tpls data w) names s -> exists s', Forall2 (point cat tpls' data w) names s' /\ ceq (csum s) (csum s').
Proof.
  intros Oc Ot Ot' Od NB names s Sm Ex F. induction F as [|n x names s P F IH]; [exists []; split; [constructor|apply ceq_refl]|].
  destruct IH as (s' & F' & C'); [intros; apply Sm; right; assumption|intros; apply Ex; right; assumption|]. destruct P as (b & t & d & f & Bb & Bt & Bd & Ev & Ne & ->). destruct (Ex n (or_introl eq_refl)) as (t' & Bt'). destruct (NB _ _ Bb) as (tr & la & Hb).
  destruct (quad_Qeq_flux _ _ _ _ _ Hb (Sm n (or_introl eq_refl) _ _ Bt Bt') _ Ev) as (v & Ev' & Q). exists ((p_flux d, v, p_err d / w) :: s'). split; [constructor; [exists b, t', d, v; auto 10|exact F']|].
  cbn [csum]. apply cadd_ceq; [|exact C']. unfold term, ceq; cbn [c_x c_t c_s]. rewrite Q. (split; [|split]); reflexivity.
Qed.
Lemma Fast cat tpls0 tpls1 data w bend sorted kM kE kept spc0 cp0 tot0 kept0 kept1 spc1 cp1 tot1 kept2 : ordered cat -> ordered tpls0 -> ordered tpls1 -> ordered data -> ~ w == 0 -> (forall n b, bound cat n b -> exists tr la, NewBand tr la = Ok b) -> (kE < List.length kept)%nat -> (0 < kM)%nat ->
  ComputePhotCrossProducts cat tpls0 data w true bend sorted 0 kE kept spc0 = Ok (Some cp0, tot0, kept0) -> nth_error kept1 kE = nth_error kept0 kE ->
  ComputePhotCrossProducts cat tpls1 data w true bend sorted kM kE kept1 spc1 = Ok (Some cp1, tot1, kept2) -> (forall n, In n sorted -> exists t, bound tpls1 n t) ->
  kept2 = kept1 /\
  ((bend < List.length sorted)%nat -> (forall n, In n (skipn bend sorted) -> same_band tpls0 tpls1 n) ->
     exists s t, Forall2 (point cat tpls1 data w) sorted s /\ sums s cp1 /\ tot1 = Some t /\ forall l, sums l spc1 -> sums (l ++ s) t) /\
  ((List.length sorted <= bend)%nat ->
     exists s0 s1 t, Forall2 (point cat tpls0 data w) sorted s0 /\ Forall2 (point cat tpls1 data w) sorted s1 /\ sums (s1 ++ s0) cp1 /\ tot1 = Some t /\ forall l, sums l spc1 -> sums (l ++ s1 ++ s0) t).
Proof.
  intros Oc O0 O1 Od W NB Lk K H0 Hk H1 Ex. destruct (Kept _ _ _ _ _ _ _ _ _ _ _ _ Oc O0 Od W Lk H0) as (s0 & t0 & k & F0 & C0 & E0 & _ & Nk & _ & K1 & K2).
  assert (Nk' : nth_error kept1 kE = Some (Some k)) by congruence. destruct (Next _ _ _ _ _ _ _ _ _ _ _ _ _ _ Oc O1 Od W K Nk' H1) as (-> & s & t & F & C & E & T). split; [reflexivity|]. split.
  - intros L Sm. destruct (firstn_F2 _ _ _ bend F0) as [_ Fk]. assert (Exk : forall n, In n (skipn bend sorted) -> exists t, bound tpls1 n t).
    { intros n Hn. apply Ex. rewrite <- (firstn_skipn bend sorted). apply in_or_app. right. exact Hn. }
    destruct (same_points cat tpls0 tpls1 data w Oc O0 O1 Od NB _ _ Sm Exk Fk) as (s' & F' & C').
    exists (s ++ s')%list, t. split; [rewrite <- (firstn_skipn bend sorted); apply Forall2_app; assumption|]. specialize (K1 L). apply sums_csum in K1.
    assert (Cp : ceq cp1 (csum (s ++ s'))). { eapply ceq_trans; [exact C|]. eapply ceq_trans; [|apply ceq_sym, csum_app]. apply cadd_ceq; [apply ceq_refl|]. eapply ceq_trans; [exact K1|exact C']. }
    split; [apply sums_csum; exact Cp|]. split; [exact E|]. intros l Hl. apply sums_csum in Hl. apply sums_csum. eapply ceq_trans; [exact T|]. eapply ceq_trans; [|apply ceq_sym, csum_app]. apply cadd_ceq; assumption.
  - intros L. specialize (K2 L). apply sums_csum in K2. rewrite firstn_all2 in F by lia. exists s0, s, t. split; [exact F0|]. split; [exact F|].
    assert (Cp : ceq cp1 (csum (s ++ s0))). { eapply ceq_trans; [exact C|]. eapply ceq_trans; [|apply ceq_sym, csum_app]. apply cadd_ceq; [apply ceq_refl|exact K2]. }
    split; [apply sums_csum; exact Cp|]. split; [exact E|]. intros l Hl. apply sums_csum in Hl. apply sums_csum. eapply ceq_trans; [exact T|]. eapply ceq_trans; [|apply ceq_sym, csum_app]. apply cadd_ceq; assumption.
Qed.
(** the fit of the spectroscopic and photometric samples together *)
Lemma Joint sqrtf thr l s c t p : sums s c -> sums (l ++ s) t -> 0 < information (l ++ s) ->
  (~ active p -> is_fit sqrtf thr (l ++ s) (ComputeAmplitudeAndChi2 sqrtf thr t p)) /\ (active p -> is_fit_prior sqrtf thr (l ++ s) p (ComputeAmplitudeAndChi2 sqrtf thr t p)) /\
  forall a, chi2_phot c a == chi2 s a.
Proof.
  intros Hs Ht Hp. apply sums_csum in Hs, Ht. assert (N : ~ c_t t == 0) by (rewrite information_csum in Hp; destruct Ht as (_ & B & _); rewrite B; lra). split; [|split].
  - intro A. exact (proj1 (Amplitude sqrtf thr _ _ _ Ht N A)).
  - intro A. exact (proj1 (Amplitude_prior sqrtf thr _ _ _ Ht N A)).
  - intro a. symmetry. exact (chi2_ceq _ _ _ Hs).
Qed.

(** * the first band not reached by the igm *)
Lemma End_spec tpls : forall names e, BandIgmEnd tpls names = Ok e -> (e <= List.length names)%nat /\
  (forall i n, (i < e)%nat -> nth_error names i = Some n -> exists t ie, mget tpls n = Ok t /\ tpl_igm_end t = Ok ie /\ ie <> (-1)%Z) /\
  (forall n, nth_error names e = Some n -> exists t, mget tpls n = Ok t /\ tpl_igm_end t = Ok (-1)%Z).
Proof.
  induction names as [|n names IH]; intros e H; cbn [BandIgmEnd] in H.
  - inversion H; subst. split; [auto|]. split; [lia|]. intros n N. discriminate.
  - destruct (mget tpls n) as [t| |] eqn:Et; try discriminate. cbn [rbind] in H. destruct (tpl_igm_end t) as [ie| |] eqn:Ei; try discriminate. cbn [rbind] in H. destruct (Z.eqb_spec ie (-1)) as [Z|Z].
    + inversion H; subst. split; [lia|]. split; [lia|]. intros m M. inversion M; subst. eauto.
    + destruct (BandIgmEnd tpls names) as [k| |] eqn:Ek; try discriminate. cbn [rbind] in H. inversion H; subst. destruct (IH k eq_refl) as (A & B & C). cbn [List.length]. split; [lia|]. split; [|exact C].
      intros [|i] m Hi M; [inversion M; subst; eauto|]. apply (B i m); [lia|exact M].
Qed.
(** the template of a band, on the wavelengths of the band at rest, initialised for the igm *)
Definition ready (z : Q) (b : band) (t : tpl) : Prop := t_axis t = map (fun l => l / (1 + z)) (b_lam b) /\ tpl_igm_end t = Ok (t_ie t) /\ GetIgmEndIndex (t_axis t) 0 (Z.of_nat (List.length (t_axis t)) - 1) = Ok (t_ie t).
Lemma first_min lam m : increasing lam -> lam <> [] -> In m lam -> (forall l, In l lam -> m <= l) -> nth 0 lam 0 == m.
Proof.
  intros I0 Ne Hm Mn. destruct lam as [|l0 lam]; [contradiction|]. cbn [nth]. pose proof (Mn l0 (or_introl eq_refl)). destruct (In_nth_error _ _ Hm) as (i & Hi). destruct i as [|i]; [inversion Hi; lra|]. pose proof (I0 0%nat (S i) l0 m ltac:(lia) eq_refl Hi). lra.
Qed.
Lemma band_end z b t tr la : NewBand tr la = Ok b -> increasing la -> - (1) < z -> ready z b t -> (t_ie t = (-1)%Z <-> 1216 * (1 + z) < b_min b).
Proof.
  intros Hb I0 Z (Ea & _ & Ei). destruct (NewBand_inv _ _ _ Hb) as (_ & Ne & _ & El & _ & _ & Im & Mn). rewrite El in Ea. assert (P : 0 < 1 + z) by lra.
  assert (Ia : increasing (t_axis t)).
  { rewrite Ea. intros i j x y Hij Hx Hy. rewrite nth_error_map in Hx, Hy. destruct (nth_error la i) as [x'|] eqn:X; [|discriminate]. destruct (nth_error la j) as [y'|] eqn:Y; [|discriminate]. cbn [option_map] in Hx, Hy. inversion Hx; inversion Hy; subst. pose proof (I0 _ _ _ _ Hij X Y).
    apply Qle_shift_div_l; [exact P|]. setoid_replace (x' / (1 + z) * (1 + z)) with x' by (field; lra). assumption. }
  assert (La : List.length (t_axis t) = List.length la) by (rewrite Ea; apply map_length). assert (0 < List.length la)%nat by (destruct la; [contradiction|cbn; lia]).
  destruct (IgmEnd (t_axis t) 0 (Z.of_nat (List.length (t_axis t)) - 1) (t_ie t) Ia ltac:(lia) ltac:(lia) Ei) as [A B].
  assert (N0 : nth_error (t_axis t) 0 = Some (nth 0 la 0 / (1 + z))). { rewrite Ea, nth_error_map, (nth_error_nth' la 0) by lia. reflexivity. }
  specialize (B 0%nat _ ltac:(lia) N0). pose proof (first_min la (b_min b) I0 Ne Im Mn) as F.
  assert (D : nth 0 la 0 / (1 + z) <= 1216 <-> b_min b <= 1216 * (1 + z)).
  { rewrite F. split; intro X.
    - apply (Qmult_le_r _ _ (1 + z) P) in X. setoid_replace (b_min b / (1 + z) * (1 + z)) with (b_min b) in X by (field; lra). exact X.
    - apply Qle_shift_div_r; [exact P|exact X]. }
  rewrite D in B. split; intro X.
  - destruct (Qlt_le_dec (1216 * (1 + z)) (b_min b)) as [?|L]; [assumption|]. apply B in L. lia.
  - destruct A as [A|A]; [exact A|]. assert (L : b_min b <= 1216 * (1 + z)) by (apply B; lia). lra.
Qed.
Lemma Igm_end cat tpls z : ordered cat -> ordered tpls -> - (1) < z -> (forall n b, bound cat n b -> exists tr la, NewBand tr la = Ok b /\ increasing la) ->
  (forall n b, bound cat n b -> exists t, bound tpls n t /\ ready z b t) ->
  exists e, BandIgmEnd tpls (GetNameListSortedByLambda cat) = Ok e /\ (e <= List.length (GetNameListSortedByLambda cat))%nat /\
    forall i n b, nth_error (GetNameListSortedByLambda cat) i = Some n -> bound cat n b -> ((i < e)%nat <-> b_min b <= 1216 * (1 + z)).
Proof.
  intros Oc Ot Z NB Rd. destruct (Sorted_names cat Oc) as (s & P & E & _ & So). rewrite E.
  assert (Bs : forall n b, In (n, b) s <-> bound cat n b) by (intros n b; split; intro H; [exact (Permutation_in _ P H)|exact (Permutation_in _ (Permutation_sym P) H)]).
  clear E P. assert (G : forall s', (forall n b, In (n, b) s' -> bound cat n b) -> StronglySorted (fun p q => b_min (snd p) <= b_min (snd q)) s' ->
    exists e, BandIgmEnd tpls (map fst s') = Ok e /\ (e <= List.length (map fst s'))%nat /\ forall i n b, nth_error s' i = Some (n, b) -> ((i < e)%nat <-> b_min b <= 1216 * (1 + z))).
  { induction s' as [|[n b] s' IH]; intros Bd Ss; cbn [map fst BandIgmEnd].
    - exists 0%nat. split; [reflexivity|]. split; [auto|]. intros i m b N. destruct i; discriminate.
    - destruct (Rd n b (Bd n b (or_introl eq_refl))) as (t & Bt & R). destruct (NB n b (Bd n b (or_introl eq_refl))) as (tr & la & Hb & Il). pose proof (band_end z b t tr la Hb Il Z R) as Q. destruct R as (_ & Ti & _).
      rewrite (proj2 (mget_bound _ _ _ Ot) Bt). cbn [rbind]. rewrite Ti. cbn [rbind]. inversion Ss as [|? ? Ss' Hf]; subst. rewrite Forall_forall in Hf. destruct (Z.eqb_spec (t_ie t) (-1)) as [X|X].
      + exists 0%nat. split; [reflexivity|]. split; [lia|]. apply Q in X. intros i m b' N. split; [lia|]. intro L. exfalso. destruct i as [|i]; [inversion N; subst; lra|]. change (nth_error s' i = Some (m, b')) in N. apply nth_error_In in N. apply Hf in N. cbn [snd] in N. lra.
      + destruct IH as (e & Ee & Le & H); [intros; apply Bd; right; assumption|exact Ss'|]. rewrite Ee. cbn [rbind List.length]. exists (S e). split; [reflexivity|]. split; [lia|]. intros [|i] m b' N.
        * inversion N; subst. split; [|lia]. intros _. destruct (Qlt_le_dec (1216 * (1 + z)) (b_min b')) as [L|L]; [apply Q in L; contradiction|exact L].
        * rewrite <- (H i m b' N). lia. }
  destruct (G s) as (e & Ee & Le & H); [intros n b Hn; apply Bs; exact Hn|exact So|]. exists e. split; [exact Ee|]. split; [exact Le|]. intros i n b Hn Hb. rewrite nth_error_map in Hn. destruct (nth_error s i) as [[n' b']|] eqn:N; [|discriminate]. cbn [option_map fst] in Hn. inversion Hn; subst n'.
  assert (Eb : b = b'). { pose proof (proj1 (Bs n b') (nth_error_In _ _ N)) as B'. apply (mget_bound _ _ _ Oc) in Hb, B'. congruence. }
  subst b'. exact (H i n b N).
Qed.

(** * the checks *)
Lemma Checks cat data : (exists u, checkInputPhotometry cat data = Ok u) <-> exists c d, cat = Some c /\ c <> [] /\ data = Some d /\ forall n, In n (keys c) -> In n (keys d).
Proof.
  unfold checkInputPhotometry. destruct cat as [[|p c]|]; [split; [intros [u U]; discriminate|intros (c & d & E & N & _); inversion E; subst; contradiction]| |split; [intros [u U]; discriminate|intros (c & d & E & _); discriminate]].
  destruct data as [d|]; [|split; [intros [u U]; discriminate|intros (? & ? & _ & _ & E & _); discriminate]]. unfold GetNameList.
  assert (F : forallb (fun n => existsb (String.eqb n) (keys d)) (keys (p :: c)) = true <-> forall n, In n (keys (p :: c)) -> In n (keys d)).
  { rewrite forallb_forall. split; intros H n Hn; specialize (H n Hn); [apply existsb_exists in H; destruct H as (x & X & Y); apply String.eqb_eq in Y; subst; exact X|apply existsb_exists; exists n; split; [exact H|apply String.eqb_refl]]. }
  destruct (forallb _ _).
  - split; [intros _; exists (p :: c), d; (split; [|split; [|split]]); auto; [discriminate|apply F; reflexivity]|eauto].
  - split; [intros [u U]; discriminate|]. intros (c' & d' & E1 & _ & E2 & H). inversion E1; inversion E2; subst. apply F in H. discriminate.
Qed.
Lemma New_spec d cat : (forall l, NewPhot [d] cat = Ok l -> exists c, cat = Some c /\ l = GetNameListSortedByLambda c /\ (exists m, d = Some m /\ forall n, In n l -> In n (keys m)) /\ l <> []) /\
  (forall c m, cat = Some c -> c <> [] -> d = Some m -> (forall n, In n (keys c) -> In n (keys m)) -> NewPhot [d] cat = Ok (GetNameListSortedByLambda c)).
Proof.
  split.
  - intros l H. unfold NewPhot in H. destruct (checkInputPhotometry cat d) as [u| |] eqn:E; try discriminate. cbn [rbind] in H. destruct (proj1 (Checks cat d) (ex_intro _ u E)) as (c & m & -> & Nc & -> & K). assert (El : l = GetNameListSortedByLambda c) by congruence. exists c. split; [reflexivity|]. split; [exact El|].
    assert (P : Permutation (GetNameListSortedByLambda c) (keys c)) by (apply Permutation_map, isort_perm). split.
    + exists m. split; [reflexivity|]. intros n Hn. apply K. rewrite El in Hn. exact (Permutation_in _ P Hn).
    + intro X. rewrite <- El, X in P. apply Permutation_nil in P. destruct c; [contradiction|discriminate].
  - intros c m -> Nc -> K. unfold NewPhot. destruct (proj2 (Checks (Some c) (Some m))) as [u E]; [exists c, m; auto|]. rewrite E. reflexivity.
Qed.
