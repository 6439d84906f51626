From Coq Require Import Qabs Lqa Setoid Permutation Sorted.
From Verif Require Import Base RangeModel RangeProofs AxisModel AxisSpec AxisProofs RebinModel RebinSpec RebinProofs CalzModel CalzProofs MeikModel MeikProofs TplModel TplSpec TplProofs SvdModel SvdSpec SvdProofs SortLib TcmbModel TcmbSpec TcmbProofs TcmbProofs2 TcmbProofs3 TcmbProofs4 TcmbProofs5 TcmbProofs6.
Open Scope Q_scope.

Lemma dust_fun v k lam d d' : dust_of v k lam d -> dust_of v k lam d' -> d = d'.
Proof. intros [(A & B & c & C & E)|[A ->]] [(A' & B' & c' & C' & E')|[A' ->]]; try reflexivity; try (exfalso; destruct A'; [tauto|lia]); try (exfalso; destruct A; [tauto|lia]). rewrite C in C'. inversion C'; subst. congruence. Qed.
Lemma igm_fun v k lam d d' : igm_of v k lam d -> igm_of v k lam d' -> d = d'.
Proof. intros [(A & B & c & C & E)|[A ->]] [(A' & B' & c' & C' & E')|[A' ->]]; try reflexivity; try (exfalso; destruct A'; [tauto|lia]); try (exfalso; destruct A; [tauto|lia]). rewrite C in C'. inversion C'; subst. congruence. Qed.
Lemma add_flux_ok ext k e : nth_error ext k = Some e -> forall fs amps acc v, add_flux amps fs ext k acc = Ok v ->
  (length fs <= length amps)%nat /\ v == acc + combination fs amps k * e.
Proof.
  intros He. induction fs as [|f fs IH]; intros amps acc v H; cbn [add_flux] in H; [inversion H; subst; split; [cbn; lia|cbn [combination]; ring]|].
  destruct amps as [|a amps]; [discriminate|]. change (vget (a :: amps) 0) with (Ok a) in H. cbn [rbind tl] in H. destruct (vget f k) as [t| |] eqn:T; try discriminate. cbn [rbind] in H. unfold vget at 1 in H. rewrite He in H. cbn [rbind] in H.
  destruct (IH _ _ _ H) as [L E]. split; [cbn [length]; lia|]. cbn [combination]. apply vget_at in T. destruct T as [T _]. rewrite T, E. ring.
Qed.
Lemma seen_combination z cal mei ks ke kd ki ax m k lam : seen_through z cal mei ks ke kd ki ax (repeat 1 (length ax)) m -> nth_error ax k = Some lam ->
  forall fs ms amps, Forall (fun f => length f = length ax) fs -> Forall2 (seen_through z cal mei ks ke kd ki ax) fs ms -> combination ms amps k == combination fs amps k * at_ m k.
Proof.
  intros Sm Hl fs ms amps Lf F. revert amps Lf. induction F as [|f g fs ms Sf F IH]; intros amps Lf; [cbn; ring|]. destruct amps as [|a amps]; [cbn; ring|]. cbn [combination]. inversion Lf as [|? ? Lf1 Lf2]; subst. rewrite IH by assumption.
  pose proof (nth_error_len _ _ _ Hl) as Lk. assert (H1 : nth_error (repeat 1 (length ax)) k = Some 1) by (apply nth_repeat; exact Lk). destruct (nth_error_lt f k ltac:(lia)) as [x Hx].
  destruct (proj2 Sm k lam 1 Hl H1) as (y & d & g1 & Hy & Dy & Gy & Ey). destruct (proj2 Sf k lam x Hl Hx) as (y' & d' & g' & Hy' & Dy' & Gy' & Ey').
  rewrite (dust_fun _ _ _ _ _ Dy' Dy) in Ey'. rewrite (igm_fun _ _ _ _ _ Gy' Gy) in Ey'. rewrite (at_err _ _ _ Hy), (at_err _ _ _ Hy'), (at_err _ _ _ Hx), Ey, Ey'. ring.
Qed.
Definition no_dust_below (ebmv : Q) (e : Z) : Z := if Qltb 0 ebmv then e else (-1)%Z.
Lemma model_ok axis ts z ebmv igm amps lr thr cal mei ax' fl e :
  strictly_increasing axis -> rbeg lr < rend lr -> 0 < 1 + z -> Forall wf_source ts -> overlapping axis ts lr z -> fine_ok mei ->
  (0 < ebmv -> exists c, cal = Some c /\ ~ cz_bstep c == 0 /\ (0 <= e)%Z /\ ebmv = cz_bstart c + cz_bstep c * inject_Z e) ->
  ComputeSpectrumModel axis ts z ebmv igm amps lr thr cal mei = Ok (ax', fl) ->
  Forall2 (fun l l' => l' == l * (1 + z)) axis ax' /\
  exists ax fs ks ke, rest z axis ax /\ (forall k, usable axis ts lr z k <-> (ks <= k <= ke)%nat) /\ Forall2 (fun s f => interpolated s ax ks ke f) ts fs /\ (length ts <= length amps)%nat /\ length fl = length axis /\
    forall ms, Forall2 (seen_through z cal mei ks ke (no_dust_below ebmv e) (if (-1 <? igm)%Z then igm else (-1)%Z) ax) fs ms -> forall k, (k < length axis)%nat -> at_ fl k == combination ms amps k.
Proof.
  intros SA R P W Ov Fi He H. unfold ComputeSpectrumModel in H. destruct (RebinTemplate axis ts z lr thr) as [[[[ax fs] cur] ov]| |] eqn:Rb; try discriminate. cbn [rbind] in H.
  destruct (rebin_ok _ _ _ _ _ _ _ _ _ SA R P W Ov Rb) as (Eax & SI & Us & Fs & Sh & Lo).
  destruct fs as [|f0 fs0] eqn:Efs; [discriminate|]. rewrite <- Efs in *. clear Efs.
  pose proof (getClosed_spec cur ax SI) as G. destruct (getClosedIntervalIndices cur ax) as [[ks ke]| |] eqn:Gc; try discriminate. cbn [rbind] in H. destruct G as [Gl Gi].
  assert (La : length ax = length axis) by (rewrite Eax; apply map_length).
  assert (Usk : forall k, usable axis ts lr z k <-> (ks <= k <= ke)%nat).
  { intros k. split.
    - intros U. destruct U as (l & Hl & U). assert (Hx : nth_error ax k = Some (l / (1 + z))) by (rewrite Eax; apply (map_nth_error (fun l => l / (1 + z))); exact Hl). apply (Gi _ _ Hx). apply (Us k l Hl). exists l. auto.
    - intros K. destruct (nth_error_lt axis k ltac:(lia)) as [l Hl]. apply (Us k l Hl). assert (Hx : nth_error ax k = Some (l / (1 + z))) by (rewrite Eax; apply (map_nth_error (fun l => l / (1 + z))); exact Hl). apply (Gi _ _ Hx). exact K. }
  assert (Ft : Forall2 (fun s f => interpolated s ax ks ke f) ts fs) by (apply Fs; intros k K; apply Usk; exact K).
  destruct (NewTpl ax (repeat 1 (length ax))) as [id0| |] eqn:N0; try discriminate. cbn [rbind] in H. pose proof (good_new _ _ _ N0) as G0.
  set (on := (Qltb 0 ebmv || (-1 <? igm)%Z)%bool) in *.
  assert (S1 : exists id1, (if on then match InitIsmIgmConfig id0 (Z.of_nat ks) (Z.of_nat ke) z cal mei with (t, Ok _) => Ok t | (_, Throw e) => Throw e | (_, UB) => UB end else Ok id0) = Ok id1 /\ inv z cal mei on ks ke ax (-1) (-1) (repeat 1 (length ax)) id1).
  { destruct on eqn:On.
    - destruct (InitIsmIgmConfig id0 (Z.of_nat ks) (Z.of_nat ke) z cal mei) as [t [[]| |]] eqn:A; try discriminate. exists t. split; [reflexivity|].
      pose proof (good_init _ _ _ _ _ _ _ _ _ _ (strictly_increasing_increasing _ SI) G0 Fi A) as G. split; [|discriminate]. unfold vw. cbn [see view0 v_cal v_mei v_amp] in G. replace (other cal None) with cal in G by (destruct cal; reflexivity). replace (other mei None) with mei in G by (destruct mei; reflexivity). exact G.
    - exists id0. split; [reflexivity|]. split; [exact G0|auto]. }
  destruct S1 as (id1 & E1 & I1). rewrite E1 in H. cbn [rbind] in H.
  assert (S2 : exists id2, (if Qltb 0 ebmv then match cal with None => UB | Some c => do i <- GetEbmvIndex c ebmv; if Z.eqb i (-1) then Ok id1 else match ApplyDustCoeff id1 i with (t, Ok _) => Ok t | (_, Throw e) => Throw e | (_, UB) => UB end end else Ok id1) = Ok id2 /\ inv z cal mei on ks ke ax (no_dust_below ebmv e) (-1) (repeat 1 (length ax)) id2).
  { unfold no_dust_below. destruct (Qltb_spec 0 ebmv) as [Lt|]; [|exists id1; auto]. destruct (He Lt) as (c & -> & Bs & Pe & Ee).
    assert (Ei : GetEbmvIndex c ebmv = Ok e) by (rewrite Ee; apply Ebmv_roundtrip; exact Bs). rewrite Ei in H |- *. cbn [rbind] in H |- *. destruct (Z.eqb_spec e (-1)) as [|_]; [lia|].
    destruct (ApplyDustCoeff id1 e) as [t [b| |]] eqn:A; try discriminate. exists t. split; [reflexivity|].
    assert (On : on = true) by (unfold on; destruct (Qltb_spec 0 ebmv); [reflexivity|contradiction]). destruct I1 as (G & Off). apply (good_dust _ _ _ _ _ _ _ G) in A. destruct A as [A _]. split; [|congruence]. unfold vw in *. rewrite On in *. exact A. }
  destruct S2 as (id2 & E2 & I2). rewrite E2 in H. cbn [rbind] in H.
  assert (S3 : exists id3, (if (-1 <? igm)%Z then match ApplyMeiksinCoeff id2 igm with (t, Ok _) => Ok t | (_, Throw e) => Throw e | (_, UB) => UB end else Ok id2) = Ok id3 /\ inv z cal mei on ks ke ax (no_dust_below ebmv e) (if (-1 <? igm)%Z then igm else (-1)%Z) (repeat 1 (length ax)) id3).
  { destruct (-1 <? igm)%Z eqn:Lm; [|exists id2; auto]. destruct (ApplyMeiksinCoeff id2 igm) as [t [b| |]] eqn:A; try discriminate. exists t. split; [reflexivity|].
    assert (On : on = true) by (unfold on; apply Bool.orb_true_r). destruct I2 as (G & Off). apply (good_igm _ _ _ _ _ _ _ (strictly_increasing_increasing _ SI) G) in A. destruct A as [A _]. split; [|congruence]. unfold vw in *. rewrite On in *. exact A. }
  destruct S3 as (id3 & E3 & I3). rewrite E3 in H. cbn [rbind] in H. clear E1 E2 E3 I1 I2.
  destruct (mapr _ (seq 0 (length axis))) as [fl'| |] eqn:Mf; try discriminate. cbn [rbind] in H. unfold ShiftByWaveLength in H. destruct (Qltb_spec (1 + z) 0); [lra|]. destruct (Qeq_bool_spec (1 + z) 0) as [|_]; [lra|]. cbn [rbind] in H. inversion H; subst ax' fl'. clear H.
  split. { clear. induction axis as [|a axis IH]; constructor; [reflexivity|exact IH]. }
  apply inv_seen in I3. pose proof (mapr_len _ _ _ Mf) as Lfl. rewrite seq_length in Lfl.
  assert (Pt : forall k, (k < length axis)%nat -> exists v, nth_error fl k = Some v /\ add_flux amps fs (t_flux id3) k 0 = Ok v).
  { intros k L. destruct (nth_error_lt fl k ltac:(lia)) as [v Hv]. exists v. split; [exact Hv|]. clear - Mf Hv L. 
    assert (Q : forall n s l, mapr (fun k => add_flux amps fs (t_flux id3) k 0) (seq s n) = Ok l -> forall j v, nth_error l j = Some v -> add_flux amps fs (t_flux id3) (s + j) 0 = Ok v).
    { induction n as [|n IH]; intros s l M j w Hj; cbn [seq mapr] in M; [inversion M; subst; destruct j; discriminate|]. destruct (add_flux amps fs (t_flux id3) s 0) as [u| |] eqn:A; try discriminate. cbn [rbind] in M. destruct (mapr _ (seq (S s) n)) as [l'| |] eqn:M'; try discriminate. cbn [rbind] in M. inversion M; subst.
      destruct j as [|j]; cbn in Hj; [inversion Hj; subst; rewrite Nat.add_0_r; exact A|]. replace (s + S j)%nat with (S s + j)%nat by lia. apply (IH _ _ M' _ _ Hj). }
    exact (Q _ _ _ Mf k v Hv). }
  assert (Lm : length (t_flux id3) = length ax) by (rewrite (proj1 I3), repeat_length; reflexivity).
  assert (Ff : Forall (fun f => length f = length ax) fs) by (clear - Ft; induction Ft as [|s f ts fs Hf]; constructor; [exact (proj1 Hf)|assumption]).
  exists ax, fs, ks, ke. split; [rewrite Eax; apply rest_map|]. split; [exact Usk|]. split; [exact Ft|]. split; [|split; [exact Lfl|]].
  - destruct (Pt ks ltac:(lia)) as (v & _ & A). destruct (nth_error_lt (t_flux id3) ks ltac:(lia)) as [ee Hee]. destruct (add_flux_ok _ _ _ Hee _ _ _ _ A) as [L _]. rewrite <- (F2_len _ _ _ Ft) in L. exact L.
  - intros ms Fm k Lk. destruct (Pt k Lk) as (v & Hv & A). destruct (nth_error_lt (t_flux id3) k ltac:(lia)) as [ee Hee]. destruct (nth_error_lt ax k ltac:(lia)) as [lam Hlam].
    rewrite (seen_combination _ _ _ _ _ _ _ _ _ _ _ I3 Hlam _ _ _ Ff Fm), (at_err _ _ _ Hv), (at_err _ _ _ Hee). rewrite (proj2 (add_flux_ok _ _ _ Hee _ _ _ _ A)). ring.
Qed.

(** all the redshifts *)
Section All.
  Variables (sqrtf : Q -> Q) (solve : nat -> list obs -> list Q * list (list Q) * Q) (dblmin : Q).
  Lemma mask_irrelevant axis flux err ts lr z thr ext dust m m' cal mei ml el : length m = length flux -> length m' = length flux ->
    BasicFit sqrtf solve dblmin axis flux err ts lr z thr ext dust m cal mei ml el = BasicFit sqrtf solve dblmin axis flux err ts lr z thr ext dust m' cal mei ml el.
  Proof. intros A B. unfold BasicFit. rewrite A, B. reflexivity. Qed.
  Lemma mapr_F2 {A B} (f : A -> res B) : forall l l', mapr f l = Ok l' -> Forall2 (fun a b => f a = Ok b) l l'.
  Proof. induction l as [|a l IH]; intros l' H; cbn [mapr] in H; [inversion H; constructor|]. destruct (f a) eqn:E; try discriminate. cbn [rbind] in H. destruct (mapr f l) eqn:E'; try discriminate. cbn [rbind] in H. inversion H. constructor; auto. Qed.
  Lemma fst_combine {A B} : forall (l : list A) (l' : list B), length l = length l' -> map fst (combine l l') = l.
  Proof. induction l as [|a l IH]; intros [|b l'] L; try discriminate; [reflexivity|]. cbn. rewrite IH by (cbn in L; lia). reflexivity. Qed.
  Definition zlt (a b : Q * nat) : bool := (Qltb (fst a) (fst b) || Qeq_bool (fst a) (fst b) && Nat.ltb (snd a) (snd b))%bool.
  Lemma zlt_false a b : zlt a b = false <-> (fst b < fst a \/ (fst a == fst b /\ (snd b <= snd a)%nat)).
  Proof.
    unfold zlt. destruct (Qltb_spec (fst a) (fst b)) as [L|L]; cbn [orb]; [split; [discriminate|intros [X|[X _]]; lra]|].
    destruct (Qeq_bool_spec (fst a) (fst b)) as [E|E]; cbn [andb].
    - destruct (Nat.ltb_spec (snd a) (snd b)) as [N|N]; [split; [discriminate|intros [X|[_ X]]; [lra|lia]]|]. split; [intros _; right; auto|reflexivity].
    - split; [intros _; left; lra|reflexivity].
  Qed.
  Lemma sorted_z zs : increasing (map fst (isort zlt (combine zs (seq 0 (length zs))))).
  Proof.
    apply StronglySorted_increasing. assert (H : lesorted zlt (isort zlt (combine zs (seq 0 (length zs))))).
    { apply isort_sorted.
      - intros x y H. apply zlt_false. unfold zlt in H. destruct (Qltb_spec (fst x) (fst y)) as [L|L]; [left; exact L|]. cbn [orb] in H. apply andb_prop in H. destruct H as [H1 H2]. destruct (Qeq_bool_spec (fst x) (fst y)) as [E|]; [|discriminate]. apply Nat.ltb_lt in H2. right. split; [lra|lia].
      - intros x y w H1 H2. apply zlt_false in H1, H2. apply zlt_false. destruct H1 as [H1|[H1 H1']], H2 as [H2|[H2 H2']]; [left; lra|left; lra|left; lra|right; split; [lra|lia]]. }
    induction H as [|a t Ht IH Hf]; cbn [map]; constructor; auto. apply Forall_forall. intros q I. apply in_map_iff in I. destruct I as (b & <- & I). rewrite Forall_forall in Hf. specialize (Hf b I). apply zlt_false in Hf. destruct Hf as [X|[X _]]; lra.
  Qed.
  Lemma Compute_ok axis flux err ts lr zs thr masks ext dust cal mei fitE fitM zs' rs :
    Compute sqrtf solve dblmin axis flux err ts lr zs thr masks ext dust cal mei fitE fitM = Ok (zs', rs) ->
    ts <> [] /\ zs <> [] /\ Permutation zs' zs /\ increasing zs' /\ (dust = true -> cal <> None) /\ (ext = true -> mei <> None) /\ (length masks = 0 \/ length masks = length zs)%nat /\
    exists clr ml el, ClampLambdaRange axis lr = Ok clr /\ idx_list ext fitM (option_map getIdxCount mei) = Ok ml /\ idx_list dust fitE (option_map (fun c => Ok (cz_n c)) cal) = Ok el /\
      Forall2 (fun z r => forall mask, length mask = length flux -> BasicFit sqrtf solve dblmin axis flux err ts clr z thr ext dust mask cal mei ml el = Ok r) zs' rs.
  Proof.
    intros H. unfold Compute in H. destruct ts as [|t0 ts0] eqn:Ets; [discriminate|]. rewrite <- Ets in *. assert (Nts : ts <> []) by (rewrite Ets; discriminate). clear Ets.
    destruct (_ || _)%bool eqn:Et; [discriminate|]. apply Bool.orb_false_iff in Et. destruct Et as [Et1 Et2].
    destruct (idx_list ext fitM _) as [ml| |] eqn:Em; try discriminate. cbn [rbind] in H. destruct (idx_list dust fitE _) as [el| |] eqn:Ee; try discriminate. cbn [rbind] in H.
    destruct (negb _ && negb _)%bool eqn:Ms; [discriminate|]. destruct (ClampLambdaRange axis lr) as [clr| |] eqn:Cl; try discriminate. cbn [rbind] in H.
    change (fun a b : Q * nat => (Qltb (fst a) (fst b) || Qeq_bool (fst a) (fst b) && Nat.ltb (snd a) (snd b))%bool) with zlt in H. remember (isort zlt (combine zs (seq 0 (length zs)))) as order eqn:Eo.
    destruct (mapr _ order) as [rs'| |] eqn:Mr; try discriminate. cbn [rbind] in H. destruct zs as [|z0 zs0] eqn:Ez; [discriminate|]. rewrite <- Ez in *. assert (Nz : zs <> []) by (rewrite Ez; discriminate). clear Ez. inversion H; subst zs' rs'. clear H.
    split; [exact Nts|]. split; [exact Nz|]. split.
    { rewrite Eo. etransitivity; [apply Permutation_map, isort_perm|]. rewrite fst_combine by (rewrite seq_length; reflexivity). reflexivity. }
    split; [rewrite Eo; apply sorted_z|]. split; [intros ->; destruct cal; [discriminate|discriminate Et1]|]. split; [intros ->; destruct mei; [discriminate|discriminate Et2]|]. split.
    { apply Bool.andb_false_iff in Ms. destruct Ms as [Ms|Ms]; apply Bool.negb_false_iff, Nat.eqb_eq in Ms; auto. }
    exists clr, ml, el. split; [reflexivity|]. split; [reflexivity|]. split; [reflexivity|]. apply mapr_F2 in Mr.
    clear - Mr. induction Mr as [|p r order rs Hp F IH]; cbn [map]; constructor; [|exact IH]. intros mask Lm. destruct (if Nat.eqb (length masks) (length zs) then vget masks (snd p) else Ok (repeat 1%N (length axis))) as [m| |]; try discriminate. cbn [rbind] in Hp.
    rewrite <- Hp. unfold BasicFit in Hp. destruct (Nat.eqb_spec (length m) (length flux)) as [E|]; [|discriminate Hp]. apply mask_irrelevant; assumption.
  Qed.
End All.
Lemma usable_clamped axis ts lr clr z k : strictly_increasing axis -> rbeg lr < rend lr -> ClampLambdaRange axis lr = Ok clr -> (usable axis ts clr z k <-> usable axis ts lr z k).
Proof.
  intros SA R C. pose proof (spcr_spec lr clr axis SA R C) as H. unfold usable. split; intros (l & Hl & I & Cv); exists l; (split; [exact Hl|split; [|exact Cv]]); apply (H l (nth_error_In _ _ Hl)); exact I.
Qed.

(** the templates *)
Lemma axis_check_ok : forall ref cur, axis_check ref cur = Ok tt <-> exists cur0 rest, cur = (cur0 ++ rest)%list /\ Forall2 (fun a b => Qabs (a - b) <= 1 # 100000000) ref cur0.
Proof.
  induction ref as [|a ref IH]; intros cur; cbn [axis_check].
  - split; [intros _; exists [], cur; split; [reflexivity|constructor]|reflexivity].
  - destruct cur as [|b cur]; [split; [discriminate|]; intros (c0 & r & E & F); inversion F; subst; discriminate|].
    destruct (Qltb_spec (1 # 100000000) (Qabs (a - b))) as [L|L].
    + split; [discriminate|]. intros (c0 & r & E & F). inversion F; subst. inversion E; subst. exfalso. apply (Qlt_not_le _ _ L). assumption.
    + rewrite IH. split.
      * intros (c0 & r & -> & F). exists (b :: c0), r. split; [reflexivity|]. constructor; [apply Qnot_lt_le, L|exact F].
      * intros (c0 & r & E & F). inversion F; subst. inversion E; subst. eauto.
Qed.
Lemma axis_check_never : forall ref cur, length ref = length cur -> axis_check ref cur = Ok tt \/ axis_check ref cur = Throw INTERNAL_ERROR.
Proof. induction ref as [|a ref IH]; intros [|b cur] L; try discriminate; cbn [axis_check]; [auto|]. destruct (Qltb _ _); [auto|]. apply IH. cbn in L. lia. Qed.
Lemma check_all_ok ref : forall ts, (check_all ref ts = Ok tt <-> Forall (fun t => Forall2 (fun a b => Qabs (a - b) <= 1 # 100000000) ref t) ts) /\ (check_all ref ts = Ok tt \/ check_all ref ts = Throw INTERNAL_ERROR).
Proof.
  induction ts as [|t ts [IH1 IH2]]; cbn [check_all]; [split; [split; [constructor|reflexivity]|auto]|]. destruct (Nat.eqb_spec (length ref) (length t)) as [E|E]; cbn [negb].
  - destruct (axis_check_never ref t E) as [A|A]; rewrite A; cbn [rbind].
    + split; [|exact IH2]. rewrite IH1. split.
      * intros F. constructor; [|exact F]. apply axis_check_ok in A. destruct A as (c0 & r & -> & F'). rewrite app_length, (F2_len _ _ _ F') in E. destruct r; [rewrite app_nil_r; exact F'|cbn in E; lia].
      * intros F. inversion F; assumption.
    + split; [|auto]. split; [discriminate|]. intros F. inversion F as [|? ? F1 F2]; subst. assert (A' : axis_check ref t = Ok tt) by (apply axis_check_ok; exists t, []; rewrite app_nil_r; auto). congruence.
  - split; [|auto]. split; [discriminate|]. intros F. inversion F as [|? ? F1 F2]; subst. apply F2_len in F1. contradiction.
Qed.
Lemma checkTemplates_ok ts : (checkTemplates ts = Ok tt <-> exists r ts', ts = r :: ts' /\ Forall (fun t => Forall2 (fun a b => Qabs (a - b) <= 1 # 100000000) r t) ts) /\ (ts = [] -> checkTemplates ts = Throw BAD_TEMPLATECATALOG) /\ (ts <> [] -> checkTemplates ts = Ok tt \/ checkTemplates ts = Throw INTERNAL_ERROR).
Proof.
  destruct ts as [|r ts]; cbn [checkTemplates]; [split; [split; [discriminate|intros (? & ? & E & _); discriminate]|split; [reflexivity|congruence]]|].
  destruct (check_all_ok r (r :: ts)) as [A B]. split; [|split; [discriminate|intros _; exact B]]. rewrite A. split; [intros F; exists r, ts; auto|]. intros (r' & ts' & E & F). inversion E; subst. exact F.
Qed.
