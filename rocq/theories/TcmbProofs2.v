From Coq Require Import Qabs Lqa Setoid.
From Verif Require Import Base RangeModel RebinModel RebinSpec CalzModel CalzProofs MeikModel MeikProofs TplModel TplSpec TplProofs SvdModel SvdSpec SvdProofs TcmbModel TcmbSpec TcmbProofs.
Open Scope Q_scope.

Section Tpl.
  Context (z : Q) (cal : option calz) (mei : option meik) (on : bool) (ks ke : nat) (ax : list Q).
  Definition vw (kd ki : Z) : view := if on then mkView true (Z.of_nat ks) (Z.of_nat ke) z cal mei kd ki 1 else view0.
  Definition inv (kd ki : Z) (f : list Q) (t : tpl) : Prop := good ax f t (vw kd ki) /\ (on = false -> kd = (-1)%Z /\ ki = (-1)%Z).
  Lemma inv_seen kd ki f t : inv kd ki f t -> seen_through z cal mei ks ke kd ki ax f (t_flux t).
  Proof.
    intros (G & Off). unfold seen_through. cbv zeta. pose proof (g_len0 _ _ _ _ G) as L0. split; [rewrite (g_flux _ _ _ _ G); symmetry; exact L0|].
    intros k lam x Hl Hf. unfold vw in G. destruct on.
    - destruct (g_pt _ _ _ _ G eq_refl k lam x Hl Hf) as (n & d & m & y & _ & _ & _ & Hx & En & Ex & Dd & Dm). exists y, d, m. repeat (split; [assumption|]). cbn [v_amp] in En. rewrite Ex, En. ring.
    - destruct (g_off _ _ _ _ G eq_refl k x Hf) as (y & Hx & Ex). destruct (Off eq_refl) as [-> ->]. exists y, 1, 1. split; [exact Hx|]. cbn [v_amp view0] in Ex.
      split; [right; split; [right; cbn; lia|reflexivity]|]. split; [right; split; [right; cbn; lia|reflexivity]|]. rewrite Ex. ring.
  Qed.
  Lemma seen_all kd ki fs ts : Forall2 (inv kd ki) fs ts -> Forall2 (seen_through z cal mei ks ke kd ki ax) fs (models ts).
  Proof. induction 1; cbn [models map]; constructor; [apply inv_seen; assumption|assumption]. Qed.
  Lemma each_dust k : on = true -> forall fs ts ts' bs kd ki, Forall2 (inv kd ki) fs ts -> each (fun t => ApplyDustCoeff t k) ts = Ok (ts', bs) -> Forall2 (inv k ki) fs ts'.
  Proof.
    intros On fs ts ts' bs kd ki F. revert ts' bs. induction F as [|f t fs ts I F IH]; intros ts' bs H; cbn [each] in H; [inversion H; constructor|].
    destruct (ApplyDustCoeff t k) as [t1 [r| |]] eqn:A; try discriminate. destruct (each _ ts) as [[ts1 b1]| |] eqn:E; try discriminate. cbn [rbind fst snd] in H. inversion H; subst. constructor; [|apply (IH _ _ eq_refl)].
    destruct I as (G & Off). apply (good_dust _ _ _ _ _ _ _ G) in A. destruct A as [A _]. split; [|congruence]. unfold vw in *. rewrite On in *. exact A.
  Qed.
  Lemma each_igm k : on = true -> increasing ax -> forall fs ts ts' bs kd ki, Forall2 (inv kd ki) fs ts -> each (fun t => ApplyMeiksinCoeff t k) ts = Ok (ts', bs) ->
    Forall2 (inv kd k) fs ts' /\ length bs = length ts /\ forall b, In b bs -> (b = true <-> below_lya ax ks ke).
  Proof.
    intros On Inc fs ts ts' bs kd ki F. revert ts' bs. induction F as [|f t fs ts I F IH]; intros ts' bs H; cbn [each] in H.
    { inversion H; subst. split; [constructor|]. split; [reflexivity|]. intros b []. }
    destruct (ApplyMeiksinCoeff t k) as [t1 [r| |]] eqn:A; try discriminate. destruct (each _ ts) as [[ts1 b1]| |] eqn:E; try discriminate. cbn [rbind fst snd] in H. inversion H; subst. destruct (IH _ _ eq_refl) as (IH1 & IH2 & IH3).
    destruct I as (G & Off). apply (good_igm _ _ _ _ _ _ _ Inc G) in A. destruct A as [A Rb]. unfold vw in A, Rb. rewrite On in A, Rb.
    split; [constructor; [|exact IH1]; split; [unfold vw; rewrite On; exact A|congruence]|]. split; [cbn [length]; congruence|]. intros b [<-|B]; [|apply IH3; exact B].
    rewrite Rb. split.
    - intros (i & lam & [_ R] & Hl & Le). cbn [v_ks v_ke] in R. exists i, lam. split; [lia|]. auto.
    - intros (i & lam & R & Hl & Le). exists i, lam. split; [split; [reflexivity|cbn [v_ks v_ke]; lia]|]. auto.
  Qed.
  Lemma init_ok : on = true -> increasing ax -> (match mei with Some m => (1 <= mk_fine m)%Z | None => True end) -> forall fs ts0 ts, mapr (NewTpl ax) fs = Ok ts0 -> init_each ks ke z cal mei ts0 = Ok ts -> Forall2 (inv (-1) (-1)) fs ts.
  Proof.
    intros On Inc Cv. induction fs as [|f fs IH]; intros ts0 ts N H; cbn [mapr] in N; [inversion N; subst; cbn in H; inversion H; constructor|].
    destruct (NewTpl ax f) as [t0| |] eqn:Nw; try discriminate. cbn [rbind] in N. destruct (mapr (NewTpl ax) fs) as [ts1| |] eqn:Ns; try discriminate. cbn [rbind] in N. inversion N; subst. cbn [init_each] in H.
    destruct (InitIsmIgmConfig _ _ _ _ _ _) as [t [[]| |]] eqn:A; try discriminate. destruct (init_each ks ke z cal mei ts1) as [r| |] eqn:E; try discriminate. cbn [rbind] in H. inversion H; subst. constructor; [|apply (IH _ _ eq_refl E)].
    pose proof (good_init _ _ _ _ _ _ _ _ _ _ Inc (good_new _ _ _ Nw) Cv A) as G. split; [|congruence].
    unfold vw. rewrite On. cbn [see view0 v_cal v_mei v_amp] in G. replace (other cal None) with cal in G by (destruct cal; reflexivity). replace (other mei None) with mei in G by (destruct mei; reflexivity). exact G.
  Qed.
  Lemma noinit_ok : on = false -> forall fs ts, mapr (NewTpl ax) fs = Ok ts -> Forall2 (inv (-1) (-1)) fs ts.
  Proof.
    intros On. induction fs as [|f fs IH]; intros ts N; cbn [mapr] in N; [inversion N; constructor|].
    destruct (NewTpl ax f) as [t0| |] eqn:Nw; try discriminate. cbn [rbind] in N. destruct (mapr (NewTpl ax) fs) as [ts1| |] eqn:Ns; try discriminate. cbn [rbind] in N. inversion N; subst.
    constructor; [|apply IH; reflexivity]. split; [unfold vw; rewrite On; apply good_new; exact Nw|auto].
  Qed.
  (** without a sample at or below Lyman alpha the igm does not change the template *)
  Lemma seen_no_igm kd ki f m : ~ below_lya ax ks ke -> seen_through z cal mei ks ke kd ki ax f m -> seen_through z cal mei ks ke kd (-1) ax f m.
  Proof.
    intros NB [L H]. split; [exact L|]. intros k lam x Hl Hf. destruct (H k lam x Hl Hf) as (y & d & g & Hy & Hd & Hg & E). exists y, d, g. split; [exact Hy|]. split; [exact Hd|]. split; [|exact E].
    right. split; [right; cbn; lia|]. destruct Hg as [(R & B & m' & Em & Eg)|[_ ->]]; [|reflexivity].
    assert (Lt : 1216 < lam). { destruct (Qlt_le_dec 1216 lam) as [?|Le]; [assumption|]. exfalso. apply NB. exists k, lam. destruct R as [_ R]. cbn [v_ks v_ke] in R. split; [lia|]. auto. }
    rewrite (proj1 (Corr_above m' (v_z _) (v_igm _) lam Lt)) in Eg. cbn in Eg. congruence.
  Qed.
End Tpl.
