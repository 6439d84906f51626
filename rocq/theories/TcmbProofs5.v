From Coq Require Import Qabs Lqa Setoid.
From Verif Require Import Base RangeModel RangeProofs AxisModel AxisSpec AxisProofs RebinModel RebinSpec RebinProofs CalzModel CalzProofs MeikModel MeikProofs TplModel TplSpec TplProofs SvdModel SvdSpec SvdProofs TFitProofs5 TcmbModel TcmbSpec TcmbProofs TcmbProofs2 TcmbProofs3 TcmbProofs4.
Open Scope Q_scope.

Lemma rest_map z axis : rest z axis (map (fun l => l / (1 + z)) axis).
Proof. induction axis as [|a axis IH]; constructor; [reflexivity|exact IH]. Qed.
Lemma below_dec ax ks ke : {below_lya ax ks ke} + {~ below_lya ax ks ke}.
Proof.
  destruct (existsb (fun k => match nth_error ax k with Some l => Qle_bool l 1216 | None => false end) (seq ks (S ke - ks))) eqn:E.
  - left. apply existsb_exists in E. destruct E as (k & I & E). apply in_seq in I. destruct (nth_error ax k) as [l|] eqn:Hl; [|discriminate]. exists k, l. split; [lia|]. split; [exact Hl|apply Qle_bool_iff; exact E].
  - right. intros (k & l & Rk & Hl & Le). assert (T : existsb (fun k => match nth_error ax k with Some l => Qle_bool l 1216 | None => false end) (seq ks (S ke - ks)) = true); [|congruence].
    apply existsb_exists. exists k. split; [apply in_seq; lia|]. rewrite Hl. apply Qle_bool_iff, Le.
Qed.
Definition fine_ok (mei : option meik) : Prop := match mei with Some m => (1 <= mk_fine m)%Z | None => True end.
Section Main.
  Variables (sqrtf : Q -> Q) (solve : nat -> list obs -> list Q * list (list Q) * Q) (dblmin : Q).
  Hypothesis LS : least_squares solve. Hypothesis Dm : 0 < dblmin.
  Lemma BasicFit_ok axis flux err ts lr z thr ext dust mask cal mei ml el r :
    strictly_increasing axis -> rbeg lr < rend lr -> 0 <= z -> Forall wf_source ts -> overlapping axis ts lr z -> (forall k, usable axis ts lr z k -> ~ at_ err k == 0) -> fine_ok mei -> ml <> [] ->
    BasicFit sqrtf solve dblmin axis flux err ts lr z thr ext dust mask cal mei ml el = Ok r ->
    right_result sqrtf dblmin axis flux err ts lr z thr ext dust cal mei ml el r.
  Proof.
    intros SA R Z0 W Ov Er Fi Nm H. unfold BasicFit in H. destruct (negb _); [discriminate|].
    destruct (RebinTemplate axis ts z lr thr) as [[[[ax fs] cur] ov]| |] eqn:Rb; try discriminate. cbn [rbind] in H.
    assert (P : 0 < 1 + z) by lra.
    destruct (rebin_ok _ _ _ _ _ _ _ _ _ SA R P W Ov Rb) as (Eax & SI & Us & Fs & Sh & Lo).
    destruct fs as [|f0 fs0] eqn:Efs; [discriminate|]. rewrite <- Efs in *. assert (Nfs : fs <> []) by (rewrite Efs; discriminate). clear Efs.
    pose proof (getClosed_spec cur ax SI) as G. destruct (getClosedIntervalIndices cur ax) as [[ks ke]| |] eqn:Gc; try discriminate. cbn [rbind] in H. destruct G as [Gl Gi].
    assert (La : length ax = length axis) by (rewrite Eax; apply map_length).
    assert (Usk : forall k, usable axis ts lr z k <-> (ks <= k <= ke)%nat).
    { intros k. split.
      - intros U. destruct U as (l & Hl & U). assert (Hx : nth_error ax k = Some (l / (1 + z))) by (rewrite Eax; apply (map_nth_error (fun l => l / (1 + z))); exact Hl). apply (Gi _ _ Hx). apply (Us k l Hl). exists l. auto.
      - intros K. destruct (nth_error_lt axis k ltac:(lia)) as [l Hl]. apply (Us k l Hl). assert (Hx : nth_error ax k = Some (l / (1 + z))) by (rewrite Eax; apply (map_nth_error (fun l => l / (1 + z))); exact Hl). apply (Gi _ _ Hx). exact K. }
    assert (Ft : Forall2 (fun s f => interpolated s ax ks ke f) ts fs) by (apply Fs; intros k K; apply Usk; exact K).
    assert (Nts : ts <> []) by (intros ->; inversion Ft; subst; contradiction).
    destruct (mapr (NewTpl ax) fs) as [tp| |] eqn:Nt; try discriminate. cbn [rbind] in H.
    destruct (if (ext || dust)%bool then _ else _) as [tp2| |] eqn:It; try discriminate. cbn [rbind] in H.
    destruct el as [|e0 el0] eqn:Eel; [discriminate|]. rewrite <- Eel in *. assert (Nel : el <> []) by (rewrite Eel; discriminate). clear Eel.
    destruct (norm_loop flux ks (S ke - ks) dblmin) as [nf| |] eqn:Nl; try discriminate. cbn [rbind] in H.
    destruct (igm_loop _ _ _ _ _ _ _ _ _ _ _ _ _ _ _ _ _) as [[st cols]| |] eqn:Ig; try discriminate. cbn [rbind fst snd] in H.
    destruct (s_best st) as [b|] eqn:Sb; [|discriminate]. destruct (s_last st) as [f|] eqn:Sl; [|discriminate]. inversion H; subst r. clear H.
    destruct (norm_ok _ _ _ _ _ Nl) as (N1 & N2 & N3).
    assert (Nf : 0 < nf) by lra.
    assert (Sc : is_scale dblmin flux ks ke nf).
    { split; [exact N1|]. split; [intros k K; apply N2; lia|]. destruct N3 as [?|(i & I & E)]; [left; assumption|right; exists i; split; [lia|exact E]]. }
    assert (Inv : Forall2 (inv z cal mei (ext || dust)%bool ks ke ax (-1) (-1)) fs tp2).
    { destruct (ext || dust)%bool eqn:On; [|inversion It; subst; apply noinit_ok; [reflexivity|exact Nt]].
      apply (init_ok _ _ _ _ _ _ _ eq_refl (strictly_increasing_increasing _ SI) Fi _ _ _ Nt It). }
    set (eff := if below_dec ax ks ke then ext else false).
    assert (Eff : eff = true <-> ext = true /\ below_lya ax ks ke) by (unfold eff; destruct (below_dec ax ks ke); split; [tauto|tauto|discriminate|tauto]).
    assert (Beg : Qltb lya (rbeg cur / (1 + z)) = true -> ~ below_lya ax ks ke).
    { intros Q (k & l & K & Hl & Le). destruct (Qltb_spec lya (rbeg cur / (1 + z))) as [Lt|]; [|discriminate]. apply (Gi _ _ Hl) in K. destruct K as [K1 _]. unfold lya in Lt.
      apply (Qmult_lt_compat_r _ _ (1 + z)) in Lt; [|exact P]. assert (E : rbeg cur / (1 + z) * (1 + z) == rbeg cur) by (field; lra). rewrite E in Lt. nra. }
    assert (Er' : forall k, (ks <= k <= ke)%nat -> ~ at_ err k == 0) by (intros k K; apply Er, Usk, K).
    destruct (loops_ok sqrtf solve LS flux err ks ke nf ext dust (ext || dust)%bool cal mei (rbeg cur) z ax fs Nf (proj1 Gl) Er' eq_refl (strictly_increasing_increasing _ SI) Nfs eff Eff Beg el ml tp2 st cols Nel Nm Inv Ig) as (T & b' & f' & k & i & g & E1 & E2 & Fl & Fc & Ch & Sn & La').
    rewrite Sb in E1. rewrite Sl in E2. inversion E1; inversion E2; subst b' f'.
    exists ax, fs, ks, ke, nf, eff. split; [rewrite Eax; apply rest_map|]. split; [exact (proj1 Gl)|]. split; [exact Usk|]. split; [exact Ft|]. split; [exact Sc|]. split; [exact Eff|]. cbn [r_cols r_best r_last r_overlap].
    split; [exact T|]. split; [exists k, i, g; auto|]. split; [exact La'|]. split; [exact Sh|apply Lo; exact Nts].
  Qed.
  (** GSL's errors *)
  Lemma fit_one_few nddl nf rs : (length rs < nddl \/ nddl < 2)%nat -> fit_one sqrtf solve nddl nf rs = Throw EXTERNAL_LIB_ERROR.
  Proof.
    intros H. unfold fit_one. destruct (Nat.ltb_spec (length rs) nddl); [reflexivity|]. destruct (solve nddl rs) as [[c cov] chi]. destruct (Nat.ltb_spec nddl 2); [reflexivity|lia].
  Qed.
End Main.
