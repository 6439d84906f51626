From Coq Require Import Qabs Lqa Setoid.
From Verif Require Import Base RangeModel RebinModel RebinSpec CalzModel CalzProofs MeikModel MeikProofs TplModel TplSpec TplProofs SvdModel SvdSpec SvdProofs TFitProofs5 TcmbModel TcmbSpec TcmbProofs TcmbProofs2.
Open Scope Q_scope.

(** one fit made, with the E(B-V) and the igm index written *)
Record vis := mkVis { v_f : fitted; v_e : Q; v_m : Z }.
Definition cell_of (v : vis) : cell := (f_chi (v_f v), v_e v, v_m v).
Definition keepv (b : option best) (v : vis) : option best := keep (v_f v) (v_m v) (v_e v) b.
Definition best_of (v : vis) : best := mkBest (f_chi (v_f v)) (f_snr (v_f v)) (v_m v) (v_e v).
Definition lastv (d : option fitted) (l : list vis) : option fitted := match rev l with [] => d | v :: _ => Some (v_f v) end.
Definition firstmin (l : list vis) (b : option best) : Prop :=
  match b with
  | None => l = []
  | Some b => exists j v, nth_error l j = Some v /\ b = best_of v /\ forall j' v', nth_error l j' = Some v' -> f_chi (v_f v) <= f_chi (v_f v') /\ ((j' < j)%nat -> f_chi (v_f v) < f_chi (v_f v'))
  end.
Lemma nth_snoc {A} (l : list A) x j y : nth_error (l ++ [x]) j = Some y -> nth_error l j = Some y \/ (j = length l /\ y = x).
Proof.
  intros H. destruct (Nat.lt_ge_cases j (length l)) as [L|L]; [left; rewrite nth_error_app1 in H by exact L; exact H|]. right. rewrite nth_error_app2 in H by exact L.
  destruct (j - length l)%nat as [|[|q]] eqn:E; cbn in H; try discriminate. split; [lia|congruence].
Qed.
Lemma firstmin_snoc l b v : firstmin l b -> firstmin (l ++ [v]) (keepv b v).
Proof.
  intros H. unfold keepv, keep. destruct b as [b|]; cbn in H.
  - destruct H as (j & w & Hj & -> & Hm). cbn [b_chi best_of]. destruct (Qltb_spec (f_chi (v_f v)) (f_chi (v_f w))) as [Lt|Nl]; cbn.
    + exists (length l), v. split; [rewrite nth_error_app2, Nat.sub_diag by lia; reflexivity|]. split; [reflexivity|]. intros j' v' H'. apply nth_snoc in H'. destruct H' as [H'|[-> ->]]; [|split; [lra|lia]].
      destruct (Hm _ _ H') as [A _]. split; [lra|intros _; lra].
    + exists j, w. split; [rewrite nth_error_app1 by (apply nth_error_Some; congruence); exact Hj|]. split; [reflexivity|]. intros j' v' H'. apply nth_snoc in H'. destruct H' as [H'|[-> ->]]; [exact (Hm _ _ H')|].
      apply nth_error_len in Hj. split; [lra|lia].
  - subst l. cbn. exists 0%nat, v. split; [reflexivity|]. split; [reflexivity|]. intros [|j'] v' H'; cbn in H'; [inversion H'; subst; split; [lra|lia]|destruct j'; discriminate].
Qed.
Lemma firstmin_fold l' : forall l b, firstmin l b -> firstmin (l ++ l') (fold_left keepv l' b).
Proof. induction l' as [|v l' IH]; intros l b H; cbn [fold_left]; [rewrite app_nil_r; exact H|]. replace (l ++ v :: l')%list with ((l ++ [v]) ++ l')%list by (rewrite <- app_assoc; reflexivity). apply IH. apply firstmin_snoc. exact H. Qed.
Lemma lastv_cons d v l : lastv d (v :: l) = lastv (Some (v_f v)) l.
Proof. unfold lastv. cbn [rev]. destruct (rev l); reflexivity. Qed.
Lemma lastv_app d l l' : lastv d (l ++ l') = lastv (lastv d l) l'.
Proof. revert d. induction l as [|v l IH]; intros d; [reflexivity|]. cbn [app]. rewrite !lastv_cons. apply IH. Qed.

Section Loop.
  Variable sqrtf : Q -> Q.
  Variable solve : nat -> list obs -> list Q * list (list Q) * Q.
  Hypothesis LS : least_squares solve.
  Variables (flux err : list Q) (ks ke : nat) (nf : Q) (ext dust on : bool) (cal : option calz) (mei : option meik) (begin z : Q) (ax : list Q) (fs : list (list Q)).
  Hypothesis Nf : 0 < nf. Hypothesis K : (ks <= ke)%nat. Hypothesis Er : forall k, (ks <= k <= ke)%nat -> ~ at_ err k == 0.
  Hypothesis On : (ext || dust)%bool = on. Hypothesis Inc : increasing ax. Hypothesis Fs : fs <> [].
  Variable eff : bool. Hypothesis Eff : eff = true <-> ext = true /\ below_lya ax ks ke.
  Hypothesis Beg : Qltb lya (begin / (1 + z)) = true -> ~ below_lya ax ks ke.
  Notation INV := (inv z cal mei on ks ke ax).
  Notation SEEN := (seen_through z cal mei ks ke).
  Definition visit (m e : Z) (v : vis) : Prop :=
    ebmv_of cal dust e (v_e v) /\ v_m v = (if eff then m else (-1)%Z) /\
    exists ms, Forall2 (SEEN (if dust then e else (-1)%Z) (if eff then m else (-1)%Z) ax) fs ms /\ right_fit sqrtf flux err ks ke nf ms (v_f v).
  Lemma F2_len {A B} (P : A -> B -> Prop) l l' : Forall2 P l l' -> length l = length l'. Proof. induction 1; cbn; congruence. Qed.
  Lemma ism_ok m ki : (forall kd ts, Forall2 (INV kd ki) fs ts -> Forall2 (SEEN kd (if eff then m else (-1)%Z) ax) fs (models ts)) ->
    forall el kd st st' col, Forall2 (INV kd ki) fs (s_tpls st) -> (dust = false -> kd = (-1)%Z) ->
    ism_loop sqrtf solve flux err ks ke nf dust cal (if eff then m else (-1)%Z) el st = Ok (st', col) ->
    exists vs kd', Forall2 (visit m) el vs /\ col = map cell_of vs /\ s_best st' = fold_left keepv vs (s_best st) /\ s_last st' = lastv (s_last st) vs /\ Forall2 (INV kd' ki) fs (s_tpls st') /\ (dust = false -> kd' = (-1)%Z).
  Proof.
    intros SN. induction el as [|e el IH]; intros kd st st' col I D H; cbn [ism_loop] in H.
    { inversion H; subst. exists [], kd. repeat (split; [first [constructor|reflexivity|assumption]|]). exact D. }
    assert (P : exists ts ebmv kd1, (do p <- (if dust then match cal with None => UB | Some c => do q <- each (fun t => ApplyDustCoeff t e) (s_tpls st); Ok (GetEbmvValue c e, fst q) end else Ok (-(1), s_tpls st)); Ok p) = Ok (ebmv, ts) /\
       Forall2 (INV kd1 ki) fs ts /\ kd1 = (if dust then e else (-1)%Z) /\ ebmv_of cal dust e ebmv).
    { destruct dust eqn:Du.
      - destruct cal as [c|] eqn:Ec; [|discriminate]. destruct (each _ (s_tpls st)) as [[ts bs]| |] eqn:Ee; try discriminate. exists ts, (GetEbmvValue c e), e. split; [reflexivity|].
        assert (On1 : on = true) by (rewrite <- On; apply Bool.orb_true_r). split; [exact (each_dust z (Some c) mei on ks ke ax e On1 _ _ _ _ _ _ I Ee)|]. split; [reflexivity|]. left. split; [reflexivity|]. exists c. split; reflexivity.
      - exists (s_tpls st), (-(1)), kd. split; [reflexivity|]. split; [exact I|]. split; [apply D; reflexivity|]. right. split; reflexivity. }
    destruct P as (ts & ebmv & kd1 & Ep & I1 & -> & Eb). destruct (if dust then _ else _) as [p| |]; cbn [rbind] in Ep; try discriminate. inversion Ep; subst p. cbn [rbind] in H.
    destruct (rows flux err ks (S ke - ks) nf ts) as [rs| |] eqn:R; try discriminate. cbn [rbind] in H.
    destruct (fit_one sqrtf solve (length ts) nf rs) as [f| |] eqn:F; try discriminate. cbn [rbind] in H.
    destruct (ism_loop _ _ _ _ _ _ _ _ _ _ el _) as [[st1 col1]| |] eqn:L; try discriminate. cbn [rbind fst snd] in H. inversion H; subst st1 col.
    assert (D1 : dust = false -> (if dust then e else (-1)%Z) = (-1)%Z) by (intros ->; reflexivity).
    destruct (IH (if dust then e else (-1)%Z) (mkState ts (keep f (if eff then m else (-1)%Z) ebmv (s_best st)) (Some f)) _ _ I1 D1 L) as (vs & kd' & Fv & -> & Eb' & El & I' & D').
    exists (mkVis f ebmv (if eff then m else (-1)%Z) :: vs), kd'. split.
    - constructor; [|exact Fv]. split; [exact Eb|]. split; [reflexivity|]. exists (models ts). split; [apply SN; exact I1|]. exact (fit_ok sqrtf solve LS _ _ _ _ _ _ _ _ Nf K Er R F).
    - split; [reflexivity|]. split; [exact Eb'|]. split; [rewrite lastv_cons; exact El|]. split; assumption.
  Qed.
  Lemma flags (bs : list bool) : bs <> [] -> (forall b, In b bs -> (b = true <-> below_lya ax ks ke)) -> forallb (fun b => b) bs = true <-> below_lya ax ks ke.
  Proof.
    intros N H. split.
    - intros F. destruct bs as [|b bs]; [contradiction|]. cbn in F. apply andb_prop in F. apply (H b (or_introl eq_refl)), F.
    - intros B. apply forallb_forall. intros b I. apply H; assumption.
  Qed.
  (** one column *)
  Lemma column_ok m el kd ki st p st' col : Forall2 (INV kd ki) fs (s_tpls st) -> (dust = false -> kd = (-1)%Z) -> (ext = false -> ki = (-1)%Z) -> (ext = true -> eff = false -> ki = (-1)%Z) ->
    (if ext then if Qltb lya (begin / (1 + z)) then Ok (s_tpls st, false) else do q <- each (fun t => ApplyMeiksinCoeff t m) (s_tpls st); Ok (fst q, forallb (fun b => b) (snd q)) else Ok (s_tpls st, false)) = Ok p ->
    snd p = eff /\
    (ism_loop sqrtf solve flux err ks ke nf dust cal (if snd p then m else (-1)%Z) el (mkState (fst p) (s_best st) (s_last st)) = Ok (st', col) ->
    exists vs kd' ki', Forall2 (visit m) el vs /\ col = map cell_of vs /\ s_best st' = fold_left keepv vs (s_best st) /\ s_last st' = lastv (s_last st) vs /\ Forall2 (INV kd' ki') fs (s_tpls st') /\ (dust = false -> kd' = (-1)%Z) /\ (ext = false -> ki' = (-1)%Z)).
  Proof.
    intros I D X Y H.
    assert (E : exists ki', snd p = eff /\ Forall2 (INV kd ki') fs (fst p) /\ (ext = false -> ki' = (-1)%Z) /\ (forall kd ts, Forall2 (INV kd ki') fs ts -> Forall2 (SEEN kd (if eff then m else (-1)%Z) ax) fs (models ts))).
    { destruct ext eqn:Ex.
      - destruct (Qltb lya (begin / (1 + z))) eqn:Eb.
        + inversion H; subst p. cbn [fst snd]. assert (Ef : eff = false) by (destruct eff; [exfalso; apply (Beg eq_refl), Eff; reflexivity|reflexivity]). rewrite Ef. exists ki. split; [reflexivity|]. split; [exact I|]. split; [discriminate|].
          intros kd' ts I'. rewrite (Y eq_refl Ef) in I'. apply (seen_all _ _ _ _ _ _ _ _ _ _ _ I').
        + destruct (each _ (s_tpls st)) as [[ts bs]| |] eqn:Ee; try discriminate. cbn [rbind fst snd] in H. inversion H; subst p. cbn [fst snd].
          assert (On1 : on = true) by (rewrite <- On; reflexivity).
          destruct (each_igm _ _ _ _ _ _ _ m On1 Inc _ _ _ _ _ _ I Ee) as (I1 & Lb & Hb).
          assert (Bn : bs <> []). { intros ->. cbn in Lb. apply F2_len in I. destruct (s_tpls st); [|discriminate]. destruct fs; [contradiction|discriminate]. }
          pose proof (flags bs Bn Hb) as Fl. exists m. split.
          { clear - Fl Eff. destruct (forallb (fun b => b) bs).
            - symmetry. apply Eff. split; [reflexivity|apply Fl; reflexivity].
            - destruct eff; [|reflexivity]. destruct (proj1 Eff eq_refl) as [_ B]. apply Fl in B. discriminate. }
          split; [exact I1|]. split; [discriminate|]. intros kd' ts' I'. pose proof (seen_all _ _ _ _ _ _ _ _ _ _ _ I') as S1. destruct eff eqn:Ef; [exact S1|].
          assert (NB : ~ below_lya ax ks ke) by (intros B; assert (false = true) by (apply Eff; auto); discriminate). clear - S1 NB. induction S1; constructor; [apply (seen_no_igm _ _ _ _ _ _ _ m); assumption|assumption].
      - inversion H; subst p. cbn [fst snd]. assert (Ef : eff = false) by (destruct eff; [destruct (proj1 Eff eq_refl); discriminate|reflexivity]). rewrite Ef. exists ki. split; [reflexivity|]. split; [exact I|]. split; [exact X|].
        intros kd' ts I'. rewrite (X eq_refl) in I'. apply (seen_all _ _ _ _ _ _ _ _ _ _ _ I'). }
    destruct E as (ki' & Es & I1 & X1 & SN). split; [exact Es|]. rewrite Es. intros L.
    destruct (ism_ok m ki' SN el kd (mkState (fst p) (s_best st) (s_last st)) _ _ I1 D L) as (vs & kd' & A & B & C & D1 & E1 & F1). exists vs, kd', ki'. repeat (split; [assumption|]). exact X1.
  Qed.
  Notation LOOP := (igm_loop sqrtf solve flux err ks ke nf ext dust cal begin z).
  Definition columns (el : list Z) (m : Z) (vs : list vis) : Prop := Forall2 (visit m) el vs.
  Lemma many_ok el : ext = false \/ eff = true -> forall ml done kd ki st st' cols, Forall2 (INV kd ki) fs (s_tpls st) -> (dust = false -> kd = (-1)%Z) -> (ext = false -> ki = (-1)%Z) ->
    LOOP el ml false done st = Ok (st', cols) ->
    exists vss, Forall2 (columns el) ml vss /\ cols = (rev done ++ map (map cell_of) vss)%list /\ s_best st' = fold_left keepv (concat vss) (s_best st) /\ s_last st' = lastv (s_last st) (concat vss).
  Proof.
    intros C. induction ml as [|m ml IH]; intros done kd ki st st' cols I D X H; cbn [igm_loop] in H.
    { inversion H; subst. exists []. split; [constructor|]. split; [cbn [map]; rewrite app_nil_r; reflexivity|]. split; reflexivity. }
    assert (Y : ext = true -> eff = false -> ki = (-1)%Z) by (intros A B; destruct C; congruence).
    destruct (if ext then _ else _) as [p| |] eqn:P; try discriminate. cbn [rbind] in H. destruct p as [ts ap].
    destruct (ism_loop _ _ _ _ _ _ _ _ _ _ el _) as [[st1 col]| |] eqn:L; try discriminate. cbn [rbind fst snd] in H.
    destruct (column_ok m el kd ki st (ts, ap) st1 col I D X Y P) as [Ea Col]. cbn [fst snd] in Ea, Col. destruct (Col L) as (vs & kd' & ki' & A1 & A2 & A3 & A4 & A5 & A6 & A7).
    replace (ext && negb ap)%bool with false in H by (rewrite Ea; destruct C as [-> | ->]; [reflexivity|rewrite Bool.andb_false_r; reflexivity]).
    destruct (IH _ _ _ _ _ _ A5 A6 A7 H) as (vss & B1 & B2 & B3 & B4). exists (vs :: vss). split; [constructor; assumption|]. split; [|split].
    - rewrite B2, A2. cbn [rev map]. rewrite <- app_assoc. reflexivity.
    - cbn [concat]. rewrite fold_left_app, <- A3. exact B3.
    - cbn [concat]. rewrite lastv_app, <- A4. exact B4.
  Qed.
  Lemma one_ok el m ml kd ki st st' cols : ext = true -> eff = false -> Forall2 (INV kd ki) fs (s_tpls st) -> (dust = false -> kd = (-1)%Z) -> ki = (-1)%Z ->
    LOOP el (m :: ml) false [] st = Ok (st', cols) ->
    exists vs, columns el m vs /\ cols = repeat (map cell_of vs) (S (length ml)) /\ s_best st' = fold_left keepv vs (s_best st) /\ s_last st' = lastv (s_last st) vs.
  Proof.
    intros Ex Ef I D X H. cbn [igm_loop] in H. destruct (if ext then _ else _) as [p| |] eqn:P; try discriminate. cbn [rbind] in H. destruct p as [ts ap].
    destruct (ism_loop _ _ _ _ _ _ _ _ _ _ el _) as [[st1 col]| |] eqn:L; try discriminate. cbn [rbind fst snd] in H.
    destruct (column_ok m el kd ki st (ts, ap) st1 col I D (fun _ => X) (fun _ _ => X) P) as [Ea Col]. cbn [fst snd] in Ea, Col. destruct (Col L) as (vs & kd' & ki' & A1 & A2 & A3 & A4 & A5 & A6 & A7).
    rewrite Ea, Ef, Ex in H. cbn [andb negb] in H. destruct ml as [|m' ml]; cbn [igm_loop rev app length Nat.add] in H; inversion H; subst st'; exists vs; (split; [exact A1|]); (split; [rewrite A2; reflexivity|]); split; assumption.
  Qed.
  Lemma visit_any m m' e v : eff = false -> visit m e v -> visit m' e v.
  Proof. intros Ef. unfold visit. rewrite Ef. auto. Qed.
  Lemma F2_nth {A B} (P : A -> B -> Prop) l l' : Forall2 P l l' -> forall i, (forall a, nth_error l i = Some a -> exists b, nth_error l' i = Some b /\ P a b) /\ (forall b, nth_error l' i = Some b -> exists a, nth_error l i = Some a /\ P a b).
  Proof.
    induction 1 as [|a b l l' H F IH]; intros [|i]; cbn; split; try (intros; discriminate).
    - intros a' E. inversion E; subst. exists b. auto.
    - intros b' E. inversion E; subst. exists a. auto.
    - apply IH.
    - apply IH.
  Qed.
  Lemma least_of f ms : right_fit sqrtf flux err ks ke nf ms f -> least flux err ms ks ke (f_chi f).
  Proof. intros (A & B & _). exists (f_amp f). auto. Qed.
  Lemma cell_inj v c e g : cell_of v = (c, e, g) -> c = f_chi (v_f v) /\ e = v_e v /\ g = v_m v.
  Proof. unfold cell_of. intros H. inversion H. auto. Qed.
  Definition last_column (ml : list Z) : nat := if (ext && negb eff)%bool then 0%nat else (length ml - 1)%nat.
  Lemma last_nth {A} (l : list A) x : nth_error (l ++ [x]) (length (l ++ [x]) - 1) = Some x.
  Proof. rewrite app_length. cbn [length]. rewrite Nat.add_sub, nth_error_app2, Nat.sub_diag by lia. reflexivity. Qed.
  Lemma lastv_nth d l : l <> [] -> exists v, nth_error l (length l - 1) = Some v /\ lastv d l = Some (v_f v).
  Proof. intros N. destruct (@exists_last _ l N) as (l' & v & ->). exists v. split; [apply last_nth|]. unfold lastv. rewrite rev_app_distr. reflexivity. Qed.
  Lemma loops_ok el ml ts st' cols : el <> [] -> ml <> [] -> Forall2 (INV (-1) (-1)) fs ts -> LOOP el ml false [] (mkState ts None None) = Ok (st', cols) ->
    right_tables flux err z cal mei dust eff ax fs ks ke ml el cols /\
    exists b f k i g, s_best st' = Some b /\ s_last st' = Some f /\ first_least cols k i b /\
      fit_of_cell sqrtf flux err z cal mei dust eff ax fs ks ke nf ml el k i g /\ f_chi g = b_chi b /\ f_snr g = b_snr b /\
      fit_of_cell sqrtf flux err z cal mei dust eff ax fs ks ke nf ml el (last_column ml) (length el - 1) f.
  Proof.
    intros Ne Nm I H.
    assert (Hv : exists vss, (forall vs, In vs vss -> length vs = length el) /\ s_best st' = fold_left keepv (concat vss) None /\ s_last st' = lastv None (concat vss) /\ vss <> [] /\
       (forall k vs, nth_error vss k = Some vs -> exists m, nth_error ml k = Some m /\ columns el m vs) /\ (length vss - 1 = last_column ml)%nat /\
       (forall k vs, nth_error vss k = Some vs -> nth_error cols k = Some (map cell_of vs)) /\
       length cols = length ml /\ forall k m, nth_error ml k = Some m -> exists k' vs, (k' <= k)%nat /\ (k' <> k -> k' = 0%nat) /\ nth_error vss k' = Some vs /\ nth_error cols k = Some (map cell_of vs) /\ columns el m vs).
    { destruct (ext && negb eff)%bool eqn:Sk.
      - apply andb_prop in Sk. destruct Sk as [Ex Ef]. assert (Ef' : eff = false) by (clear - Ef; destruct eff; [discriminate|reflexivity]). destruct ml as [|m ml]; [contradiction|].
        destruct (one_ok el m ml (-1)%Z (-1)%Z (mkState ts None None) st' cols Ex Ef' I (fun _ => eq_refl) eq_refl H) as (vs & A & B & C & D0). exists [vs]. cbn [concat]. rewrite app_nil_r.
        split; [intros v [<-|[]]; symmetry; apply (F2_len _ _ _ A)|]. split; [exact C|]. split; [exact D0|]. split; [discriminate|].
        split; [intros [|k] v Hk; [inversion Hk; subst; exists m; split; [reflexivity|exact A]|destruct k; discriminate]|]. split; [unfold last_column; rewrite Ex, Ef'; reflexivity|].
        split; [intros [|k] v Hk; [inversion Hk; subst; reflexivity|destruct k; discriminate]|]. split; [rewrite B, repeat_length; reflexivity|].
        intros k m' Hk. exists 0%nat, vs. split; [lia|]. split; [auto|]. split; [reflexivity|]. split.
        + rewrite B. apply nth_error_len in Hk. cbn [length] in Hk. clear - Hk. assert (G : forall n k, (k < n)%nat -> nth_error (repeat (map cell_of vs) n) k = Some (map cell_of vs)); [|exact (G _ _ Hk)]. induction n as [|n IH]; intros [|j] L; cbn; try lia; [reflexivity|apply IH; lia].
        + unfold columns in *. clear - A Ef'. induction A; constructor; [apply (visit_any m); assumption|assumption].
      - assert (Cs : ext = false \/ eff = true) by (destruct ext, eff; auto).
        destruct (many_ok el Cs ml [] (-1)%Z (-1)%Z (mkState ts None None) st' cols I (fun _ => eq_refl) (fun _ => eq_refl) H) as (vss & A & B & C & D0). cbn [rev app] in B. exists vss.
        split; [intros v Iv; apply In_nth_error in Iv; destruct Iv as [k Hk]; destruct (proj2 (F2_nth _ _ _ A k) v Hk) as (m & Hm & Cm); symmetry; apply (F2_len _ _ _ Cm)|].
        split; [exact C|]. split; [exact D0|]. split; [intros ->; inversion A; subst; contradiction|].
        split; [intros k v Hk; destruct (proj2 (F2_nth _ _ _ A k) v Hk) as (m & Hm & Cm); exists m; auto|]. split; [unfold last_column; rewrite Sk, (F2_len _ _ _ A); reflexivity|].
        split; [intros k v Hk; rewrite B; apply map_nth_error; exact Hk|]. split; [rewrite B, map_length; symmetry; apply (F2_len _ _ _ A)|].
        intros k m Hk. destruct (proj1 (F2_nth _ _ _ A k) m Hk) as (v & Hv & Cv). exists k, v. split; [lia|]. split; [congruence|]. split; [exact Hv|]. split; [rewrite B; apply map_nth_error; exact Hv|exact Cv]. }
    destruct Hv as (vss & Len & Eb & El & Nv & Hm & Ll & Hc & Lc & Hk). split.
    - split; [exact Lc|]. intros k m Mk. destruct (Hk k m Mk) as (k' & vs & _ & _ & _ & Ck & Cv). exists (map cell_of vs). split; [exact Ck|]. split; [rewrite map_length; symmetry; apply (F2_len _ _ _ Cv)|].
      intros i e Ei. destruct (proj1 (F2_nth _ _ _ Cv i) e Ei) as (v & Hv & V1 & V2 & ms & V3 & V4). exists (f_chi (v_f v)), (v_e v). split; [rewrite (map_nth_error cell_of _ _ Hv); unfold cell_of; rewrite V2; reflexivity|].
      split; [exact V1|]. exists ms. split; [exact V3|]. apply least_of. exact V4.
    - assert (Ncat : concat vss <> []).
      { destruct vss as [|vs vss']; [contradiction|]. cbn [concat]. pose proof (Len vs (or_introl eq_refl)) as Lv. destruct vs; [|discriminate]. destruct el; [contradiction|discriminate]. }
      pose proof (firstmin_fold (concat vss) [] None eq_refl) as Fm. rewrite app_nil_l in Fm. rewrite <- Eb in Fm. destruct (s_best st') as [b|]; cbn in Fm; [|contradiction].
      destruct Fm as (j & v & Hj & -> & Min). destruct (concat_inv (length el) vss j v Len Hj) as (k & i & vs & Ej & Hvs & Hi & Li).
      destruct (lastv_nth None _ Ncat) as (w & Hw & Lw). exists (best_of v), (v_f w), k, i, (v_f v). split; [reflexivity|]. split; [rewrite El; exact Lw|]. split; [|split; [|split; [|split]]].
      + exists (map cell_of vs). split; [apply Hc; exact Hvs|]. split; [rewrite (map_nth_error cell_of _ _ Hi); reflexivity|].
        intros k' i' col' c e g Hk' Hi'. assert (Lk : (k' < length ml)%nat) by (rewrite <- Lc; apply nth_error_len in Hk'; exact Hk'). destruct (nth_error_lt ml k' Lk) as [m' Hm'].
        destruct (Hk k' m' Hm') as (k2 & vs2 & Le & Or & Hvs2 & Ck & _). rewrite Ck in Hk'. inversion Hk'; subst col'. destruct (nth_error vs2 i') as [v'|] eqn:Ev'; [|rewrite (proj2 (nth_error_None _ _)) in Hi' by (rewrite map_length; apply nth_error_None; exact Ev'); discriminate].
        rewrite (map_nth_error cell_of _ _ Ev') in Hi'. assert (E' : c = f_chi (v_f v')) by (clear - Hi'; unfold cell_of in Hi'; congruence). rewrite E'.
        assert (Li' : (i' < length el)%nat) by (rewrite <- (Len vs2 (nth_error_In _ _ Hvs2)); apply nth_error_len in Ev'; exact Ev').
        pose proof (concat_nth (length el) vss k2 i' vs2 Len Hvs2 Li') as Hn. rewrite Ev' in Hn. destruct (Min _ _ Hn) as [M1 M2]. cbn [b_chi best_of]. split; [exact M1|]. intros Bf. apply M2. rewrite Ej.
        destruct Bf as [Bf|[-> Bf]]; [|].
        * assert ((k2 + 1) * length el <= k * length el)%nat by (apply Nat.mul_le_mono_r; lia). lia.
        * destruct (Nat.eq_dec k2 k) as [-> |N2]; [lia|]. rewrite (Or N2). destruct (Nat.eq_dec k 0) as [->|]; [lia|]. assert ((1) * length el <= k * length el)%nat by (apply Nat.mul_le_mono_r; lia). lia.
      + destruct (Hm k vs Hvs) as (m & Mk & Cm). destruct (proj2 (F2_nth _ _ _ Cm i) v Hi) as (e & Ei & V1 & V2 & ms & V3 & V4). exists m, e, ms. auto.
      + reflexivity.
      + reflexivity.
      + assert (Lcat : length (concat vss) = (length vss * length el)%nat).
        { clear - Len. induction vss as [|v vss IH]; [reflexivity|]. cbn [concat length Nat.mul]. rewrite app_length, (Len v (or_introl eq_refl)), IH; [reflexivity|]. intros; apply Len; right; assumption. }
        assert (Pv : (0 < length vss)%nat) by (destruct vss; [contradiction|cbn; lia]). assert (Pe : (0 < length el)%nat) by (destruct el; [contradiction|cbn; lia]).
        destruct (nth_error_lt vss (length vss - 1) ltac:(lia)) as [vl Hvl].
        assert (Ei : (length (concat vss) - 1 = (length vss - 1) * length el + (length el - 1))%nat).
        { rewrite Lcat. rewrite Nat.mul_sub_distr_r. assert (1 * length el <= length vss * length el)%nat by (apply Nat.mul_le_mono_r; lia). lia. }
        rewrite Ei, (concat_nth (length el) vss _ (length el - 1) vl Len Hvl) in Hw by lia.
        destruct (Hm _ _ Hvl) as (m & Mk & Cm). destruct (proj2 (F2_nth _ _ _ Cm _) w Hw) as (e & Ee & V1 & V2 & ms & V3 & V4). exists m, e, ms. rewrite <- Ll. auto.
  Qed.
End Loop.
