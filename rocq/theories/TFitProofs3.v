From Coq Require Import Setoid.
From Verif Require Import Base RangeModel RangeProofs AxisModel AxisProofs CalzModel CalzProofs MeikModel MeikSpec MeikProofs TplModel TplSpec TplProofs TFitModel TFitSpec TFitProofs TFitProofs2.
Open Scope Q_scope.

Lemma nth_at l i x : nth_error l i = Some x -> at_ l i = x. Proof. exact (at_nth l i x). Qed.

Section Fit.
  Context (z : Q) (cal : option calz) (mei : option meik) (on : bool).
  Definition vw (o : obs) (kd ki : Z) : view := if on then mkView true (Z.of_nat (o_ks o)) (Z.of_nat (o_ke o)) z cal mei kd ki 1 else view0.
  (** the current state of an observation which was [o0] at the beginning *)
  Definition inv (kd ki : Z) (o0 o : obs) : Prop :=
    o_y o = o_y o0 /\ o_e o = o_e o0 /\ o_mask o = o_mask o0 /\ o_ks o = o_ks o0 /\ o_ke o = o_ke o0 /\
    good (axis_of o0) (flux_of o0) (o_tpl o) (vw o0 kd ki) /\ (on = false -> kd = (-1)%Z /\ ki = (-1)%Z).
  Lemma inv_model kd ki o0 o : inv kd ki o0 o -> is_model z cal mei kd ki o0 (t_flux (o_tpl o)).
  Proof.
    intros (_ & _ & _ & _ & _ & G & Off). unfold is_model. cbv zeta. pose proof (g_len0 _ _ _ _ G) as L0. split; [rewrite (g_flux _ _ _ _ G); symmetry; exact L0|].
    intros k lam f Hl Hf. unfold vw in G. destruct on.
    - destruct (g_pt _ _ _ _ G eq_refl k lam f Hl Hf) as (n & d & m & x & _ & _ & _ & Hx & En & Ex & Dd & Dm). exists x, d, m. repeat (split; [assumption|]). cbn [v_amp] in En. rewrite Ex, En. ring.
    - destruct (g_off _ _ _ _ G eq_refl k f Hf) as (x & Hx & Ex). destruct (Off eq_refl) as [-> ->]. exists x, 1, 1. split; [exact Hx|]. cbn [v_amp view0] in Ex.
      split; [right; split; [right; cbn; lia|reflexivity]|]. split; [right; split; [right; cbn; lia|reflexivity]|]. rewrite Ex. ring.
  Qed.
  Lemma dust_det v v' k lam d d' : v_on v = v_on v' -> v_ks v = v_ks v' -> v_ke v = v_ke v' -> v_dust v = v_dust v' -> v_cal v = v_cal v' -> dust_of v k lam d -> dust_of v' k lam d' -> d = d'.
  Proof.
    intros E1 E2 E3 E4 E5 H H'. unfold dust_of, in_range in *. rewrite <- E1, <- E2, <- E3, <- E4, <- E5 in H'.
    destruct H as [(A & B & c & Ec & Ed)|[A ->]], H' as [(A' & B' & c' & Ec' & Ed')|[A' ->]]; try reflexivity; try tauto; [congruence| |].
    - destruct A' as [A'|A']; [contradiction|lia].
    - destruct A as [A|A]; [contradiction|lia].
  Qed.
  Lemma igm_one v k lam g : 1216 < lam -> igm_of v k lam g -> g = 1.
  Proof. intros L [(A & B & m & Em & Eg)|[_ ->]]; [|reflexivity]. rewrite (proj1 (Corr_above m (v_z v) (v_igm v) lam L)) in Eg. congruence. Qed.
  (** above Lyman alpha two models with the same dust are the same *)
  Lemma models_above kd ki ki' o m m' k lam : fresh o -> is_model z cal mei kd ki o m -> is_model z cal mei kd ki' o m' -> nth_error (axis_of o) k = Some lam -> 1216 < lam -> at_ m k == at_ m' k.
  Proof.
    intros (N & _ & _) [_ M] [_ M'] Hl L. assert (Lf : length (axis_of o) = length (flux_of o)).
    { unfold NewTpl in N. destruct (Nat.eqb_spec (length (axis_of o)) (length (flux_of o))); [assumption|discriminate]. }
    destruct (nth_error_lt (flux_of o) k) as [f Hf]; [rewrite <- Lf; exact (nth_error_len _ _ _ Hl)|].
    destruct (M k lam f Hl Hf) as (x & d & g & Hx & Hd & Hg & Ex), (M' k lam f Hl Hf) as (x' & d' & g' & Hx' & Hd' & Hg' & Ex').
    rewrite (nth_at _ _ _ Hx), (nth_at _ _ _ Hx'), Ex, Ex', (igm_one _ _ _ _ L Hg), (igm_one _ _ _ _ L Hg').
    rewrite (dust_det _ _ _ _ _ _ eq_refl eq_refl eq_refl eq_refl eq_refl Hd Hd'). reflexivity.
  Qed.

  (** ** the calls on all the templates *)
  Lemma each_dust k : on = true -> forall os0 os os' b kd ki, Forall2 (inv kd ki) os0 os -> each_tpl (fun t => ApplyDustCoeff t k) os = Ok (os', b) -> Forall2 (inv k ki) os0 os'.
  Proof.
    intros On os0 os os' b kd ki F. revert os' b. induction F as [|o0 o os0 os I F IH]; intros os' b H; cbn [each_tpl] in H; [inversion H; constructor|].
    destruct (ApplyDustCoeff (o_tpl o) k) as [t [r| |]] eqn:A; try discriminate. destruct (each_tpl _ os) as [[os1 b1]| |] eqn:E; try discriminate. cbn [rbind] in H. inversion H; subst. constructor; [|apply (IH _ _ eq_refl)].
    destruct I as (E1 & E2 & E3 & E4 & E5 & G & Off). unfold inv. cbn [with_tpl o_y o_e o_mask o_ks o_ke o_tpl]. repeat (split; [assumption|]). split; [|congruence].
    apply (good_dust _ _ _ _ _ _ _ G) in A. destruct A as [A _]. unfold vw in *. rewrite On in *. exact A.
  Qed.
  Lemma each_igm k : on = true -> forall os0 os os' b kd ki, Forall fresh os0 -> Forall2 (inv kd ki) os0 os -> each_tpl (fun t => ApplyMeiksinCoeff t k) os = Ok (os', b) ->
    Forall2 (inv kd k) os0 os' /\ (b = true <-> below_lya os0).
  Proof.
    intros On os0 os os' b kd ki Fr F. revert os' b. induction F as [|o0 o os0 os I F IH]; intros os' b H; cbn [each_tpl] in H.
    { inversion H; subst. split; [constructor|]. split; [discriminate|]. intros (o & _ & _ & [] & _). }
    inversion Fr as [|? ? Fo Fos]; subst.
    destruct (ApplyMeiksinCoeff (o_tpl o) k) as [t [r| |]] eqn:A; try discriminate. destruct (each_tpl _ os) as [[os1 b1]| |] eqn:E; try discriminate. cbn [rbind fst snd] in H. inversion H; subst. destruct (IH Fos _ _ eq_refl) as [IH1 IH2].
    destruct I as (E1 & E2 & E3 & E4 & E5 & G & Off). destruct Fo as (Nw & Inc & Kr). apply (good_igm _ _ _ _ _ _ _ Inc G) in A. destruct A as [A Rb]. unfold vw in A, Rb. rewrite On in A, Rb.
    split.
    - constructor; [|exact IH1]. unfold inv. cbn [with_tpl o_y o_e o_mask o_ks o_ke o_tpl]. repeat (split; [assumption|]). split; [|congruence]. unfold vw. rewrite On. exact A.
    - split.
      + intro B. destruct r.
        * destruct (proj1 Rb eq_refl) as (i & lam & [_ R] & Hl & Le). cbn [v_ks v_ke] in R. exists o0, i, lam. split; [left; reflexivity|]. split; [lia|]. auto.
        * cbn [orb] in B. apply IH2 in B. destruct B as (o' & i & lam & Io & R). exists o', i, lam. split; [right; exact Io|exact R].
      + intros (o' & i & lam & Io & R & Hl & Le). destruct Io as [<-|Io].
        * replace r with true; [reflexivity|]. symmetry. apply Rb. exists i, lam. split; [split; [reflexivity|cbn [v_ks v_ke]; lia]|]. auto.
        * replace b1 with true; [destruct r; reflexivity|]. symmetry. apply IH2. exists o', i, lam. auto.
  Qed.
  Lemma init_ok : on = true -> (match mei with Some m => (1 <= mk_fine m)%Z | None => True end) -> forall os os', Forall fresh os -> init_all z cal mei os = Ok os' -> Forall2 (inv (-1) (-1)) os os'.
  Proof.
    intros On Cv. induction os as [|o os IH]; intros os' Fr H; cbn [init_all] in H; [inversion H; constructor|]. inversion Fr as [|? ? Fo Fos]; subst.
    destruct (InitIsmIgmConfig _ _ _ _ _ _) as [t [[]| |]] eqn:A; try discriminate. destruct (init_all z cal mei os) as [r| |] eqn:E; try discriminate. cbn [rbind] in H. inversion H; subst. constructor; [|apply IH; auto].
    destruct Fo as (Nw & Inc & Kr). pose proof (good_init _ _ _ _ _ _ _ _ _ _ Inc (good_new _ _ _ Nw) Cv A) as G. unfold inv. cbn [with_tpl o_y o_e o_mask o_ks o_ke o_tpl]. repeat (split; [reflexivity|]). split; [|congruence].
    unfold vw. rewrite On. cbn [see view0 v_cal v_mei v_amp] in G. replace (other cal None) with cal in G by (destruct cal; reflexivity). replace (other mei None) with mei in G by (destruct mei; reflexivity). exact G.
  Qed.
  Lemma noinit_ok : on = false -> forall os, Forall fresh os -> Forall2 (inv (-1) (-1)) os os.
  Proof.
    intros On. induction 1 as [|o os Fo Fos IH]; constructor; [|exact IH]. destruct Fo as (Nw & Inc & Kr). unfold inv. repeat (split; [reflexivity|]). split; [|auto]. unfold vw. rewrite On. apply good_new. exact Nw.
  Qed.

  (** ** the sums of one observation *)
  Definition first_above (o : obs) (ie : Z) : nat := Nat.max (o_ks o) (Z.to_nat (ie + 1)).
  (** the sums kept for the samples above the igm, for the [n] first dust indices *)
  Definition outok (dusts : list Z) (n : nat) (o : obs) (out : list cross) : Prop :=
    length out = length dusts /\
    forall i kd, (i < n)%nat -> nth_error dusts i = Some kd ->
      exists s m ki ie, nth_error out i = Some s /\ GetIgmEndIndex (axis_of o) (Z.of_nat (o_ks o)) (Z.of_nat (o_ke o)) = Ok ie /\ is_model z cal mei kd ki o m /\
        ceq s (csum (sub_samples o m (first_above o ie) (S (o_ke o) - first_above o ie))).
  Lemma igm_end_ok kd ki o0 o ie : fresh o0 -> inv kd ki o0 o -> tpl_igm_end (o_tpl o) = Ok ie ->
    GetIgmEndIndex (axis_of o0) (Z.of_nat (o_ks o0)) (Z.of_nat (o_ke o0)) = Ok ie /\ (ie = (-1)%Z \/ (Z.of_nat (o_ks o0) <= ie <= Z.of_nat (o_ke o0))%Z) /\
    forall k lam, (o_ks o0 <= k <= o_ke o0)%nat -> nth_error (axis_of o0) k = Some lam -> (lam <= 1216 <-> (Z.of_nat k <= ie)%Z).
  Proof.
    intros (Nw & Inc & Kr) (_ & _ & _ & _ & _ & G & _) H. unfold tpl_igm_end in H. destruct (enabled (o_tpl o)) eqn:En; [|discriminate]. destruct (t_mei (o_tpl o)) as [m|] eqn:Em; [|discriminate]. inversion H; subst ie.
    pose proof (g_on _ _ _ _ G) as On. rewrite En in On. unfold vw in *. destruct on; [|discriminate]. pose proof (g_mei _ _ _ _ G) as Gm. cbn [v_mei] in Gm. rewrite Em in Gm.
    destruct (g_igm _ _ _ _ G eq_refl) as [_ Gi]. destruct (Gi m (eq_sym Gm)) as (_ & Hie & _). cbn [v_ks v_ke] in Hie.
    destruct (IgmEnd (axis_of o0) (Z.of_nat (o_ks o0)) (Z.of_nat (o_ke o0)) (t_ie (o_tpl o)) Inc) as [A B]; [lia|lia|exact Hie|]. split; [exact Hie|]. split; [exact A|]. intros k lam Hk Hl. apply B; [lia|exact Hl].
  Qed.
  Lemma turns_nat a b : turns (Z.of_nat a) (Z.of_nat b) = (S b - a)%nat. Proof. unfold turns. lia. Qed.

  Definition after (kM kE n : nat) : nat := if Nat.eqb kM 0 then S kE else n.
  Lemma cross_ok fast dusts kM kE n kd ki o0 o out c out' : fresh o0 -> inv kd ki o0 o -> nth_error dusts kE = Some kd ->
    (fast = true -> reaches_above o0 /\ outok dusts (if Nat.eqb kM 0 then kE else n) o0 out /\ (kM <> 0%nat -> (kE < n)%nat)) ->
    ComputeCrossProducts fast kM kE out o = Ok (c, out') ->
    ceq c (csum (fitted o0 (t_flux (o_tpl o)))) /\ ~ c_t c == 0 /\ (fast = true -> outok dusts (if Nat.eqb kM 0 then S kE else n) o0 out') /\
    ((fast = false \/ kM = O) -> errs_ok o0 (o_ks o0) (S (o_ke o0) - o_ks o0)).
  Proof.
    intros Fo I Hkd Ho H. pose proof I as I0. destruct I as (E1 & E2 & E3 & E4 & E5 & G & Off). unfold ComputeCrossProducts in H. rewrite E1, E2, E3, E4, E5 in H.
    pose proof (inv_model _ _ _ _ I0) as Md. pose proof (proj2 (proj2 Fo)) as Kr.
    assert (Nz : forall q : cross * list cross, (if Qeq_bool (c_t (fst q)) 0 then Throw INTERNAL_ERROR else Ok q) = Ok (c, out') -> q = (c, out') /\ ~ c_t c == 0).
    { intros q Hq. destruct (Qeq_bool (c_t (fst q)) 0) eqn:Eq; [discriminate|]. inversion Hq; subst q. split; [reflexivity|]. apply Qeq_bool_neq. exact Eq. }
    destruct fast.
    - destruct (Ho eq_refl) as (Ra & Oo & Kn). clear Ho.
      destruct (tpl_igm_end (o_tpl o)) as [ie| |] eqn:Ei; try discriminate. cbn [rbind] in H.
      destruct (igm_end_ok _ _ _ _ _ Fo I0 Ei) as (Hie & Rie & Sie).
      assert (Lt : (ie < Z.of_nat (o_ke o0))%Z).
      { destruct (nth_error_lt (axis_of o0) (o_ke o0)) as [lam Hl]; [lia|]. pose proof (Ra lam Hl) as L. assert (Q1 : (o_ks o0 <= o_ke o0 <= o_ke o0)%nat) by lia. pose proof (Sie _ _ Q1 Hl) as Q2.
        destruct (Z_lt_le_dec ie (Z.of_nat (o_ke o0))) as [?|Y]; [assumption|]. apply Q2 in Y. lra. }
      set (i0 := first_above o0 ie). assert (I0r : (o_ks o0 <= i0 <= o_ke o0)%nat) by (unfold i0, first_above; lia).
      assert (Split : fitted o0 (t_flux (o_tpl o)) = (sub_samples o0 (t_flux (o_tpl o)) (o_ks o0) (i0 - o_ks o0) ++ sub_samples o0 (t_flux (o_tpl o)) i0 (S (o_ke o0) - i0))%list).
      { rewrite fitted_sub. replace (S (o_ke o0) - o_ks o0)%nat with ((i0 - o_ks o0) + (S (o_ke o0) - i0))%nat by lia. rewrite sub_samples_split. replace (o_ks o0 + (i0 - o_ks o0))%nat with i0 by lia. reflexivity. }
      destruct (Nat.eqb_spec kM 0) as [K0|K0].
      + subst kM. cbn [Nat.ltb Nat.leb andb] in H. rewrite turns_nat in H.
        destruct (cross_loop _ _ _ _ _ _ _ _ _ _) as [[acc sv]| |] eqn:Cl; try discriminate. cbn [rbind fst snd Nat.eqb] in H.
        destruct (vset out kE _) as [out1| |] eqn:Vs; try discriminate. cbn [rbind] in H. apply Nz in H. destruct H as [Eq Nt]. inversion Eq; subst c out'. clear Eq.
        destruct (loop_sum _ _ _ _ _ _ _ _ _ _ Cl) as (Sm & Er & _). assert (Sm' : ceq acc (csum (fitted o0 (t_flux (o_tpl o))))). { eapply ceq_trans; [exact Sm|]. rewrite fitted_sub. csimp. (split; [|split]); ring. }
        split; [exact Sm'|]. split; [exact Nt|]. split; [|intros _; exact Er]. intros _.
        apply loop_saved in Cl. destruct sv as [s|]; [|destruct Cl; lia]. destruct Cl as (i1 & R1 & R2 & R3 & Es). assert (i1 = i0) by (unfold i0, first_above; lia). subst i1.
        apply vset_get in Vs. destruct Vs as (Lk & L1 & Gt). destruct Oo as [Ol Og]. split; [congruence|]. intros i kd' Hi Hk. rewrite Gt. destruct (Nat.eqb_spec i kE) as [->|Ne]; [|apply Og; auto; lia].
        assert (kd' = kd) by congruence. subst kd'. exists (csub acc s), (t_flux (o_tpl o)), ki, ie. split; [reflexivity|]. split; [exact Hie|]. split; [exact Md|].
        fold i0. rewrite Split in Sm'. pose proof (csum_app (sub_samples o0 (t_flux (o_tpl o)) (o_ks o0) (i0 - o_ks o0)) (sub_samples o0 (t_flux (o_tpl o)) i0 (S (o_ke o0) - i0))) as Ap.
        apply (ceq_trans _ _ _ Sm') in Ap. destruct Ap as (A1 & A2 & A3), Es as (B1 & B2 & B3). unfold ceq, csub. cbn [c_x c_t c_s cadd czero] in *. rewrite A1, A2, A3, B1, B2, B3. (split; [|split]); ring.
      + destruct (Nat.ltb_spec 0 kM) as [_|Y]; [|lia]. cbn [andb] in H.
        destruct (cross_loop _ _ _ _ _ _ _ _ _ _) as [[acc sv]| |] eqn:Cl; try discriminate. cbn [rbind fst snd] in H.
        unfold vget in H. destruct (nth_error out kE) as [s|] eqn:Eo; [|discriminate]. cbn [rbind] in H. apply Nz in H. destruct H as [Eq Nt]. inversion Eq; subst c out'. clear Eq.
        split; [|split; [exact Nt|split; [intros _; exact Oo|intros [Y|Y]; [discriminate|contradiction]]]].
        destruct (loop_sum _ _ _ _ _ _ _ _ _ _ Cl) as (Sm & _ & _). destruct Oo as [Ol Og]. destruct (Og kE kd (Kn K0) Hkd) as (s1 & m & ki' & ie' & Hs & Hie' & Mm & Es).
        assert (s1 = s) by congruence. subst s1. assert (ie' = ie) by congruence. subst ie'. fold i0 in Es.
        replace (turns (Z.of_nat (o_ks o0)) ie) with (i0 - o_ks o0)%nat in Sm by (unfold turns, i0, first_above; lia).
        rewrite Split. eapply ceq_trans; [|apply ceq_sym; apply csum_app].
        apply cadd_ceq; [eapply ceq_trans; [exact Sm|]; csimp; (split; [|split]); ring|].
        eapply ceq_trans; [exact Es|]. apply sub_samples_ceq. intros i Hi. destruct (nth_error_lt (axis_of o0) i) as [lam Hl]; [lia|].
        apply (models_above kd ki' ki o0 m (t_flux (o_tpl o)) i lam Fo Mm Md Hl). destruct (Qlt_le_dec 1216 lam) as [?|Le]; [assumption|]. exfalso. assert (Q1 : (o_ks o0 <= i <= o_ke o0)%nat) by lia. apply (Sie _ _ Q1 Hl) in Le. unfold i0, first_above in Hi. lia.
    - cbn [rbind andb] in H. rewrite turns_nat in H. destruct (cross_loop _ _ _ _ _ _ _ _ _ _) as [[acc sv]| |] eqn:Cl; try discriminate. cbn [rbind fst snd] in H. apply (Nz (acc, out)) in H. destruct H as [Eq Nt]. inversion Eq; subst c out'.
      destruct (loop_sum _ _ _ _ _ _ _ _ _ _ Cl) as (Sm & Er & _). split; [eapply ceq_trans; [exact Sm|]; rewrite fitted_sub; csimp; (split; [|split]); ring|]. split; [exact Nt|]. split; [discriminate|]. intros _; exact Er.
  Qed.
End Fit.
