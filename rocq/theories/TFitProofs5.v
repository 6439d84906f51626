From Coq Require Import Setoid.
From Verif Require Import Base RangeModel RangeProofs AxisModel AxisProofs CalzModel CalzProofs MeikModel MeikSpec MeikProofs TplModel TplSpec TplProofs TFitModel TFitSpec TFitProofs TFitProofs2 TFitProofs3 TFitProofs4.
Open Scope Q_scope.

Lemma no_igm z cal mei kd m o x : (forall k lam, (o_ks o <= k <= o_ke o)%nat -> nth_error (axis_of o) k = Some lam -> 1216 < lam) -> is_model z cal mei kd m o x -> is_model z cal mei kd (-1) o x.
Proof.
  intros Ab [L M]. split; [exact L|]. intros k lam f Hl Hf. destruct (M k lam f Hl Hf) as (y & d & g & Hy & Hd & Hg & Ey). exists y, d, 1. split; [exact Hy|]. split.
  { unfold dust_of, in_range in *. cbn [v_on v_ks v_ke v_dust v_cal] in *. exact Hd. }
  split; [right; split; [right; cbn [v_igm]; lia|reflexivity]|]. assert (g = 1); [|subst g; exact Ey].
  destruct Hg as [(I & _ & m' & _ & Em)|[_ ->]]; [|reflexivity]. destruct I as [_ I]. cbn [v_ks v_ke] in I. assert (Hk : (o_ks o <= k <= o_ke o)%nat) by lia.
  rewrite (proj1 (Corr_above m' _ _ lam (Ab k lam Hk Hl))) in Em. congruence.
Qed.
Lemma no_igm_all z cal mei kd m os : ~ below_lya os -> forall xs, Forall2 (is_model z cal mei kd m) os xs -> Forall2 (is_model z cal mei kd (-1)) os xs.
Proof.
  intros Nb xs F. induction F as [|o x os xs M F IH]; constructor.
  - apply (no_igm _ _ _ _ m); [|exact M]. intros k lam Hk Hl. destruct (Qlt_le_dec 1216 lam) as [?|Le]; [assumption|]. exfalso. apply Nb. exists o, k, lam. split; [left; reflexivity|auto].
  - apply IH. intros (o' & k & lam & Io & R). apply Nb. exists o', k, lam. split; [right; exact Io|exact R].
Qed.

(** ** rows of equal lengths *)
Lemma concat_nth {A} (n : nat) : forall (rows : list (list A)) k i row, (forall r, In r rows -> length r = n) -> nth_error rows k = Some row -> (i < n)%nat -> nth_error (concat rows) (k * n + i) = nth_error row i.
Proof.
  induction rows as [|r rows IH]; intros k i row Hl Hk Hi; [destruct k; discriminate|]. assert (Lr : length r = n) by (apply Hl; left; reflexivity). cbn [concat]. destruct k as [|k]; cbn [nth_error] in Hk.
  - inversion Hk; subst. cbn [Nat.mul Nat.add]. rewrite nth_error_app1 by lia. reflexivity.
  - rewrite nth_error_app2 by lia. replace (S k * n + i - length r)%nat with (k * n + i)%nat by lia. apply (IH k i row); auto. intros r' Ir. apply Hl. right. exact Ir.
Qed.
Lemma concat_inv {A} (n : nat) : forall (rows : list (list A)) j x, (forall r, In r rows -> length r = n) -> nth_error (concat rows) j = Some x ->
  exists k i row, j = (k * n + i)%nat /\ nth_error rows k = Some row /\ nth_error row i = Some x /\ (i < n)%nat.
Proof.
  induction rows as [|r rows IH]; intros j x Hl Hj; cbn [concat] in Hj; [destruct j; discriminate|]. assert (Lr : length r = n) by (apply Hl; left; reflexivity).
  destruct (Nat.lt_ge_cases j (length r)) as [L|L].
  - rewrite nth_error_app1 in Hj by exact L. exists O, j, r. split; [lia|]. split; [reflexivity|]. split; [exact Hj|lia].
  - rewrite nth_error_app2 in Hj by exact L. destruct (IH (j - length r)%nat x) as (k & i & row & Ej & Hk & Hi & Li); [intros r' Ir; apply Hl; right; exact Ir|exact Hj|]. exists (S k), i, row. split; [lia|auto].
Qed.

Section Fit.
  Context (sqrtf : Q -> Q) (thr z : Q) (cal : option calz) (mei : option meik) (on fast dust ext eff : bool) (priors : list prior) (apply : bool) (EL : list Z) (os0 : list obs).
  Notation INV kd ki := (Forall2 (inv z cal mei on kd ki) os0).
  Notation OUT n := (Forall2 (outok z cal mei (dusts dust EL) n) os0).
  Notation CELL := (cellok sqrtf thr z cal mei os0).
  Notation ebm := (ebmv cal dust).
  Notation kdo := (kd_of dust).
  Definition ki_of (m : Z) : Z := if eff then m else (-1)%Z.
  Definition column (mm m : Z) (col : list entry) (fs : list fit) : Prop :=
    length col = length EL /\ length fs = length EL /\
    forall i e, nth_error EL i = Some e -> exists f p, nth_error fs i = Some f /\ prior_at priors apply e p /\ nth_error col i = Some (f_chi2 f, ebm e, mm) /\ CELL (kdo e) (ki_of m) p f.
  Definition items (m : Z) (fs : list fit) : list item := map (fun q => (fst q, ebm (snd q), ki_of m)) (combine fs EL).
  Lemma column_m mm m m' col fs : eff = false -> column mm m col fs -> column mm m' col fs.
  Proof. intro E. unfold column, ki_of. rewrite E. auto. Qed.

  Section Hyps.
  Hypothesis (Ne : os0 <> []) (Fr : Forall fresh os0) (Don : dust = true -> on = true) (Eon : ext = true -> on = true) (Ra : fast = true -> Forall reaches_above os0)
             (Eff : eff = true <-> ext = true /\ below_lya os0).

  (** the igm is applied to all the templates, then the loop on the dust *)
  Lemma column_ok kM m (skip skip' : bool) st st' ents kd ki os b :
    (if ext then do q <- each_tpl (fun t => ApplyMeiksinCoeff t m) (s_obs st); Ok (fst q, if (snd q && Nat.eqb kM 0)%bool then false else skip) else Ok (s_obs st, skip)) = Ok (os, skip') ->
    skip = (if Nat.eqb kM 0 then true else negb eff) -> (dust = false -> kd = (-1)%Z) -> (ext = false -> ki = (-1)%Z) -> INV kd ki (s_obs st) ->
    (fast = true -> OUT (if Nat.eqb kM 0 then O else length EL) (s_out st)) -> (fast = false -> length (s_out st) = length os0) ->
    ism_loop sqrtf thr fast dust cal priors apply kM m skip' EL 0 (mkSt os (s_out st) b) = Ok (st', ents) ->
    skip' = negb eff /\ exists fs kd' ki', column m m ents fs /\ s_best st' = fold_left upd (items m fs) b /\ INV kd' ki' (s_obs st') /\ (dust = false -> kd' = (-1)%Z) /\ (ext = false -> ki' = (-1)%Z) /\
      (fast = true -> OUT (length EL) (s_out st')) /\ (fast = false -> length (s_out st') = length os0) /\
      ((fast = false \/ kM = O) -> EL <> [] -> Forall (fun o => errs_ok o (o_ks o) (S (o_ke o) - o_ks o)) os0).
  Proof.
    intros He Hs Dk Ek I Oo Ol Hi.
    assert (X : skip' = negb eff /\ exists ki', INV kd ki' os /\ (ext = false -> ki' = (-1)%Z) /\ ((ki' = m /\ ext = true) \/ ext = false)).
    { destruct ext.
      - destruct (each_tpl _ (s_obs st)) as [[os1 b1]| |] eqn:Ea; try discriminate. cbn [rbind fst snd] in He. inversion He; subst os skip'. clear He.
        destruct (each_igm z cal mei on m (Eon eq_refl) _ _ _ _ _ _ Fr I Ea) as [I1 B1]. split; [|exists m; split; [exact I1|split; [discriminate|auto]]].
        subst skip. destruct (Nat.eqb kM 0); [|rewrite andb_false_r; reflexivity]. rewrite andb_true_r. destruct b1.
        + replace eff with true; [reflexivity|]. symmetry. apply Eff. split; [reflexivity|]. apply B1. reflexivity.
        + destruct eff; [|reflexivity]. destruct Eff as [Ef _]. destruct (Ef eq_refl) as [_ Bl]. apply B1 in Bl. discriminate.
      - inversion He; subst os skip'. split; [|exists ki; split; [exact I|split; [exact Ek|auto]]].
        assert (eff = false) by (destruct eff; [destruct Eff as [Ef _]; destruct (Ef eq_refl); discriminate|reflexivity]). rewrite H in *. subst skip. destruct (Nat.eqb kM 0); reflexivity. }
    destruct X as (Sk & ki' & Io & Ek' & Kc). split; [exact Sk|].
    destruct (ism_ok sqrtf thr z cal mei on fast dust priors apply EL os0 kM m skip' ki' Ne Fr Don Ra EL [] (mkSt os (s_out st) b) st' ents kd eq_refl Dk Io Oo Ol Hi)
      as (fs & kd' & L1 & L2 & Cells & Best & I' & Dk' & Oo' & Ol' & Er).
    exists fs, kd', ki'. split.
    - split; [exact L2|]. split; [exact L1|]. intros i e Hie. destruct (Cells i e Hie) as (f & p & Hf & Hp & Hen & C). exists f, p. split; [exact Hf|]. split; [exact Hp|]. split; [exact Hen|].
      unfold ki_of. destruct Kc as [[-> Et]|Ef0].
      + destruct eff eqn:Eeff; [exact C|]. destruct C as (ms & Ms & C). exists ms. split; [|exact C]. apply (no_igm_all _ _ _ _ m); [|exact Ms]. intro Bl. assert (false = true) by (apply Eff; auto). discriminate.
      + rewrite (Ek' Ef0) in C. assert (eff = false) by (destruct eff; [destruct Eff as [Ef _]; destruct (Ef eq_refl); congruence|reflexivity]). rewrite H. exact C.
    - split; [|auto 10]. rewrite Best. unfold items, ki_of. rewrite Sk. cbn [s_best]. destruct eff; reflexivity.
  Qed.

  (** the columns after the first *)
  Lemma tail_ok : forall ml kM m0 col0 fs0 st st' cols kd ki, (0 < kM)%nat -> column m0 m0 col0 fs0 -> (dust = false -> kd = (-1)%Z) -> (ext = false -> ki = (-1)%Z) -> INV kd ki (s_obs st) ->
    (fast = true -> OUT (length EL) (s_out st)) -> (fast = false -> length (s_out st) = length os0) ->
    igm_loop sqrtf thr fast dust ext cal priors apply EL ml kM (negb eff) col0 st = Ok (st', cols) ->
    exists fss, length cols = length ml /\ length fss = length ml /\
      (forall k m, nth_error ml k = Some m -> exists col fs, nth_error cols k = Some col /\ nth_error fss k = Some fs /\ column (if eff then m else m0) m col fs /\ (eff = false -> fs = fs0)) /\
      s_best st' = fold_left upd (if eff then concat (map (fun q => items (fst q) (snd q)) (combine ml fss)) else []) (s_best st).
  Proof.
    induction ml as [|m ml IH]; intros kM m0 col0 fs0 st st' cols kd ki Kp C0 Dk Ek I Oo Ol H; cbn [igm_loop] in H.
    - inversion H; subst. exists []. split; [reflexivity|]. split; [reflexivity|]. split; [intros [|k] m Hk; discriminate|]. destruct eff; reflexivity.
    - destruct (Nat.ltb_spec 0 kM) as [_|Y]; [|lia]. cbn [andb] in H. destruct (negb eff) eqn:Ne1.
      + assert (Ef : eff = false) by (destruct eff; [discriminate|reflexivity]). inversion H; subst st' cols. exists (map (fun _ => fs0) (m :: ml)). split; [cbn; rewrite map_length; reflexivity|]. split; [cbn; rewrite map_length; reflexivity|]. split; [|rewrite Ef; reflexivity].
        intros k m' Hk. exists col0, fs0. split; [apply (map_nth_error (fun _ => col0) k (m :: ml) Hk)|]. split; [apply (map_nth_error (fun _ => fs0) k (m :: ml) Hk)|]. rewrite Ef. split; [|reflexivity]. apply (column_m m0 m0 m'); assumption.
      + assert (Ef : eff = true) by (destruct eff; [reflexivity|discriminate]).
        destruct (if ext then _ else _) as [[os skip']| |] eqn:He in H; try discriminate. cbn [rbind] in H.
        destruct (ism_loop _ _ _ _ _ _ _ _ _ _ _ _ _) as [[st1 ents]| |] eqn:Hi in H; try discriminate. cbn [rbind fst snd] in H.
        assert (Kn : Nat.eqb kM 0 = false) by (apply Nat.eqb_neq; lia).
        destruct (column_ok kM m false skip' st st1 ents kd ki os (s_best st) He) as (Sk & fs & kd' & ki' & Col & Best & I' & Dk' & Ek' & Oo' & Ol' & _);
          [rewrite Kn, Ef; reflexivity|exact Dk|exact Ek|exact I|rewrite Kn; exact Oo|exact Ol|exact Hi|].
        destruct (igm_loop _ _ _ _ _ _ _ _ _ _ _ _ _ _) as [[st2 cols2]| |] eqn:Hl in H; try discriminate. cbn [rbind fst snd] in H. inversion H; subst st' cols. clear H.
        rewrite Kn in Hl. assert (Sk2 : skip' = false) by (rewrite Sk, Ef; reflexivity). rewrite Sk2 in Hl.
        assert (K1 : (0 < S kM)%nat) by lia.
        destruct (IH (S kM) m0 col0 fs0 st1 st2 cols2 kd' ki' K1 C0 Dk' Ek' I' Oo' Ol' Hl) as (fss & L1 & L2 & Cs & B2).
        exists (fs :: fss). split; [cbn; congruence|]. split; [cbn; congruence|]. split.
        * intros [|k] m' Hk; cbn [nth_error] in *; [|exact (Cs k m' Hk)]. inversion Hk; subst m'. exists ents, fs. rewrite Ef. split; [reflexivity|]. split; [reflexivity|]. split; [exact Col|discriminate].
        * rewrite B2, Best. rewrite Ef. cbn [combine map concat fst snd]. rewrite fold_left_app. reflexivity.
  Qed.

  Lemma loop_ok ml st st' cols kd ki : ml <> [] -> EL <> [] -> (dust = false -> kd = (-1)%Z) -> (ext = false -> ki = (-1)%Z) -> INV kd ki (s_obs st) ->
    (fast = true -> OUT 0 (s_out st)) -> (fast = false -> length (s_out st) = length os0) -> s_best st = None ->
    igm_loop sqrtf thr fast dust ext cal priors apply EL ml 0 true [] st = Ok (st', cols) ->
    exists fss, length cols = length ml /\ length fss = length ml /\
      (forall k m, nth_error ml k = Some m -> exists col fs, nth_error cols k = Some col /\ nth_error fss k = Some fs /\ column (if eff then m else nth 0 ml 0%Z) m col fs /\ (eff = false -> nth_error fss 0 = Some fs)) /\
      s_best st' = fold_left upd (if eff then concat (map (fun q => items (fst q) (snd q)) (combine ml fss)) else match ml, fss with m :: _, fs :: _ => items m fs | _, _ => [] end) None /\
      Forall (fun o => errs_ok o (o_ks o) (S (o_ke o) - o_ks o)) os0.
  Proof.
    destruct ml as [|m ml]; [congruence|]. intros _ NeE Dk Ek I Oo Ol Bn H. cbn [igm_loop Nat.ltb Nat.leb andb Nat.eqb] in H.
    destruct (if ext then _ else _) as [[os skip']| |] eqn:He in H; try discriminate. cbn [rbind] in H.
    destruct (ism_loop _ _ _ _ _ _ _ _ _ _ _ _ _) as [[st1 ents]| |] eqn:Hi in H; try discriminate. cbn [rbind fst snd] in H.
    destruct (column_ok 0 m true skip' st st1 ents kd ki os (s_best st) He) as (Sk & fs & kd' & ki' & Col & Best & I' & Dk' & Ek' & Oo' & Ol' & Er); try assumption; [reflexivity|].
    destruct (igm_loop _ _ _ _ _ _ _ _ _ _ _ _ _ _) as [[st2 cols2]| |] eqn:Hl in H; try discriminate. cbn [rbind fst snd] in H. inversion H; subst st' cols. clear H.
    rewrite Sk in Hl. assert (K1 : (0 < 1)%nat) by lia.
    destruct (tail_ok ml 1 m ents fs st1 st2 cols2 kd' ki' K1 Col Dk' Ek' I' Oo' Ol' Hl) as (fss & L1 & L2 & Cs & B2).
    exists (fs :: fss). split; [cbn; congruence|]. split; [cbn; congruence|]. split; [|split; [|apply Er; auto]].
    - intros [|k] m' Hk; cbn [nth_error nth] in *.
      + inversion Hk; subst m'. exists ents, fs. split; [reflexivity|]. split; [reflexivity|]. split; [destruct eff; exact Col|reflexivity].
      + destruct (Cs k m' Hk) as (col & f & A & B & C & D). exists col, f. split; [exact A|]. split; [exact B|]. split; [exact C|]. intro E. rewrite (D E). reflexivity.
    - rewrite B2, Best, Bn. cbn [combine map concat fst snd]. destruct eff; [rewrite fold_left_app; reflexivity|reflexivity].
  Qed.
  End Hyps.
End Fit.
