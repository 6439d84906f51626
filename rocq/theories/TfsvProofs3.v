From Coq Require Import String Lqa.
From Verif Require Import Base PhotModel PhotSpec PhotProofs TfsvModel TfsvSpec TfsvProofs TfsvProofs2.
Open Scope Q_scope.

Lemma seq_names : forall (l : list (string * etype)) ns, Forall2 (fun j n => exists ty, nth_error l j = Some (n, ty)) (seq 0 (List.length l)) ns -> ns = map fst l.
Proof.
  intros l ns H. assert (G : forall k l' ns, Forall2 (fun j n => exists ty, nth_error l j = Some (n, ty)) (seq k (List.length l')) ns -> (forall j, nth_error l' j = nth_error l (k + j)) -> ns = map fst l').
  { clear. intros k l'. revert k. induction l' as [|p l' IH]; intros k ns H E; cbn [List.length seq] in H; inversion H as [|? ? ? ? [ty X] F]; subst; [reflexivity|]. cbn [map]. f_equal.
    - specialize (E 0%nat). rewrite Nat.add_0_r, X in E. cbn in E. inversion E. reflexivity.
    - apply (IH (S k)); [exact F|]. intro j. rewrite Nat.add_succ_comm. exact (E (S j)). }
  apply (G 0%nat); [exact H|reflexivity].
Qed.

Section Compute.
  Variable fit : list etype -> bool -> string -> etype -> bool -> bool -> res fitresult.
  Variable cp : nat -> list Q.
  Variable pdf : array -> res (list (string * Q)).
  Variable model : nat -> bool -> string -> Q -> Q -> Z -> Q -> res (list Q).
  Notation comp := (compute fit cp pdf model).

  Lemma compute_ok component fft phot ext dust s s' es : (forall c, results c s = []) -> comp component fft phot ext dust s = (s', Ok es) ->
    exists t, ParseComponent component = Ok t /\ (fft && phot)%bool = false /\ s_spcs s' = s_spcs s /\ s_tpls s' = s_tpls s /\ s_log s' = false /\ s_tpls s <> [] /\ NoDup (map fst (s_tpls s)) /\
      (forall c, In c (components t) -> right_results fit (List.length (s_spcs s)) fft (map fst (s_tpls s)) c ext (dusty t c dust) (results c s')) /\
      (forall c, ~ In c (components t) -> results c s' = []) /\
      exists a cs n0 r0 m', right_array cp (results (scope_of t) s') a /\ pdf a = Ok cs /\ cs <> [] /\ results (scope_of t) s' = (n0, r0) :: m' /\ same_redshifts (results (scope_of t) s') (fr_zs r0) /\
        Forall2 (fun c e => right_candidate (results (scope_of t) s') (fr_zs r0) (fst c) (snd c) (fst e) /\ right_models model (List.length (s_spcs s)) (fst e) (snd e)) cs es.
  Proof.
    intros EMP E. unfold compute in E. destruct (fft && phot)%bool eqn:FP; [discriminate|]. destruct (ParseComponent component) as [t| |]; try discriminate.
    change (s_tpls (set_log fft s)) with (s_tpls s) in E. destruct (s_tpls s) as [|p0 pl] eqn:TP; [discriminate|]. rewrite <- TP in *.
    destruct (template_loop fit (seq 0 (List.length (s_tpls s))) t ext dust (set_log fft s)) as [s1 [u| |]] eqn:L; try discriminate. destruct u.
    apply tloop_ok in L; [|intros c _; replace (results c (set_log fft s)) with (results c s) by (destruct c; reflexivity); rewrite EMP; constructor].
    change (s_tpls (set_log fft s)) with (s_tpls s) in L. change (s_spcs (set_log fft s)) with (s_spcs s) in L. change (s_log (set_log fft s)) with fft in L.
    destruct L as (L1 & L2 & L3 & L4 & ns & L5 & ND & L6). apply seq_names in L5. subst ns.
    assert (R0 : forall c, results c (set_log fft s) = []) by (intro c; rewrite <- (EMP c); destruct c; reflexivity).
    destruct (BuildChisquareArray cp (results (scope_of t) s1)) as [a| |] eqn:A; try discriminate. cbn [rbind] in E. destruct (pdf a) as [cs| |] eqn:P; try discriminate.
    inversion E as [[Es E2]]. clear E. assert (RS : forall c, results c (set_log false s1) = results c s1) by (intro c; destruct c; reflexivity).
    exists t. split; [reflexivity|]. split; [reflexivity|]. split; [exact L1|]. split; [exact L3|]. split; [reflexivity|]. split; [rewrite TP; discriminate|]. split; [exact ND|].
    assert (RR : forall c, In c (components t) -> right_results fit (List.length (s_spcs s)) fft (map fst (s_tpls s)) c ext (dusty t c dust) (results c s1)).
    { intros c C. destruct (L6 c C) as (_ & O & K & B). split; [exact O|]. split; [intro n; rewrite K, R0; cbn [keys map In]; tauto|]. intros n r X. destruct (B n r X) as [Y|[_ Y]]; [rewrite R0 in Y; destruct Y|exact Y]. }
    split; [intros c C; rewrite RS; exact (RR c C)|]. split; [intros c C; rewrite RS, (L4 c C); apply R0|].
    assert (SC : In (scope_of t) (components t)) by (destruct t; left; reflexivity).
    change (s_spcs (set_log false s1)) with (s_spcs s1) in E2. rewrite L1 in E2.
    destruct (buildExtremaResults model (results (scope_of t) s1) (List.length (s_spcs s)) cs) as [es'| |] eqn:B; try discriminate. cbn [rbind] in E2.
    apply build_ok in B; [|exact (proj1 (RR _ SC))]. destruct B as (n0 & r0 & m' & B1 & B2 & B3). assert (es' = es) by (destruct es'; [discriminate|inversion E2; reflexivity]). subst es'.
    exists a, cs, n0, r0, m'. rewrite RS. split; [apply array_ok; exact A|]. split; [exact P|]. split; [intro X; subst cs; inversion B3; subst; discriminate|]. split; [exact B1|]. split; [exact B2|exact B3].
  Qed.

  (** ** success *)
  Lemma retype_name j t : forall l i n ty, nth_error l i = Some (n, ty) -> exists ty', nth_error (retype j t l) i = Some (n, ty').
  Proof. induction j as [|j IH]; intros [|p l] [|i] n ty E; cbn in *; try discriminate; eauto. inversion E; eauto. Qed.

  Lemma loop_succ ext : forall cs j n ty dust s, NoDup cs -> nth_error (s_tpls s) j = Some (n, ty) ->
    (forall c, In c cs -> exists r, fit (repeat c (List.length (s_spcs s))) (s_log s) n c ext (dust_run cs c dust) = Ok r) -> (forall c, In c cs -> ~ In n (keys (results c s))) ->
    exists s', component_loop fit j cs ext dust s = (s', Ok tt).
  Proof.
    induction cs as [|x cs IH]; intros j n ty dust s ND Hj F K; cbn [component_loop]; [eauto|]. inversion ND as [|? ? NI ND']; subst.
    rewrite (retype_nth j x _ n ty Hj : nth_error (s_tpls (set_types (repeat x (List.length (s_spcs s))) j x s)) j = _).
    change (s_spcs (set_types (repeat x (List.length (s_spcs s))) j x s)) with (repeat x (List.length (s_spcs s))).
    change (s_log (set_types (repeat x (List.length (s_spcs s))) j x s)) with (s_log s).
    destruct (F x (or_introl eq_refl)) as [r Fr]. cbn [dust_run] in Fr. destruct (etype_dec x x) as [_|N]; [|contradiction]. rewrite Fr, results_types.
    destruct (mget_cases (results x s) n) as [[v V]|[V _]]; [exfalso; apply (K x (or_introl eq_refl)); exact (mget_keys _ _ _ V)|]. rewrite V.
    apply (IH j n x); [exact ND'|rewrite tpls_set; exact (retype_nth j x _ n ty Hj)| |].
    - intros c C. rewrite spcs_set, log_set. cbn [set_types s_spcs s_log]. rewrite repeat_length. destruct (F c (or_intror C)) as [r' Fr']. cbn [dust_run] in Fr'. destruct (etype_dec x c) as [Ex|Ex]; [subst; contradiction|]. exists r'. exact Fr'.
    - intros c C. rewrite results_set, results_types. pose proof (K c (or_intror C)) as Kc. destruct c, x; try exact Kc; contradiction.
  Qed.
  Lemma Solve_succ t ext dust j n ty s : nth_error (s_tpls s) j = Some (n, ty) -> (forall c, In c (components t) -> exists r, fit (repeat c (List.length (s_spcs s))) (s_log s) n c ext (dusty t c dust) = Ok r) ->
    (forall c, In c (components t) -> ~ In n (keys (results c s))) -> exists s', Solve fit j t ext dust s = (s', Ok tt).
  Proof.
    intros Hj F K. unfold Solve. rewrite Hj. destruct (loop_succ ext (components t) j n ty dust s (components_nodup t) Hj) as [s' E].
    - intros c C. rewrite dust_run_dusty by exact C. exact (F c C).
    - exact K.
    - rewrite E. eauto.
  Qed.
  Lemma tloop_succ t ext dust : forall ns js s, Forall2 (fun j n => exists ty, nth_error (s_tpls s) j = Some (n, ty)) js ns -> NoDup ns -> (forall c, In c (components t) -> ordered (results c s)) ->
    (forall c n, In c (components t) -> In n ns -> (exists r, fit (repeat c (List.length (s_spcs s))) (s_log s) n c ext (dusty t c dust) = Ok r) /\ ~ In n (keys (results c s))) ->
    exists s', template_loop fit js t ext dust s = (s', Ok tt).
  Proof.
    induction ns as [|n ns IH]; intros js s F2 ND O H; inversion F2 as [|j ? js' ? [ty Hj] F2']; subst; cbn [template_loop]; [eauto|].
    inversion ND as [|? ? NI ND']; subst. destruct (Solve_succ t ext dust j n ty s Hj) as [s1 E1]; [intros c C; exact (proj1 (H c n C (or_introl eq_refl)))|intros c C; exact (proj2 (H c n C (or_introl eq_refl)))|]. rewrite E1.
    apply Solve_ok in E1. destruct E1 as (n' & ty' & Hj' & A1 & A2 & A3 & _ & A5). rewrite Hj in Hj'. inversion Hj'; subst n' ty'. apply IH; [rewrite A3; exact F2'|exact ND'| |].
    - intros c C. destruct (A5 c C) as (r & _ & _ & R). rewrite R. apply mput_ordered. exact (O c C).
    - intros c k C K. rewrite A1, A2. destruct (H c k C (or_intror K)) as [H1 H2]. split; [exact H1|]. destruct (A5 c C) as (r & _ & _ & R). rewrite R. intro X. destruct (mget_in _ _ X) as [v V]. rewrite (mget_mput _ _ _ _ _ (O c C)) in V.
      destruct (String.eqb_spec k n) as [Ek|Nk]; [subst k; contradiction|]. apply H2. exact (mget_keys _ _ _ V).
  Qed.
  Lemma column_succ tab a b : forall n k, (forall i, (k <= i < k + n)%nat -> exists t c v, nth_error tab i = Some t /\ nth_error t a = Some c /\ nth_error c b = Some v) -> exists l, column_at tab a b n k = Ok l.
  Proof.
    induction n as [|n IH]; intros k H; cbn [column_at]; [eauto|]. assert (H0 : (k <= k < k + S n)%nat) by lia. destruct (H k H0) as (t & c & v & T & C & V). unfold vget. rewrite T. cbn [rbind]. rewrite C. cbn [rbind]. rewrite V. cbn [rbind].
    assert (H1 : exists l, column_at tab a b n (S k) = Ok l) by (apply IH; intros i Hi; apply H; lia). destruct H1 as [l L]. rewrite L. eexists; reflexivity.
  Qed.
  Lemma columns_succ r : forall ks, (forall a b, In (a, b) ks -> exists l, column r a b = Ok l) -> exists l, columns r ks = Ok l.
  Proof. induction ks as [|[a b] ks IH]; intro H; cbn [columns]; [eauto|]. destruct (H a b (or_introl eq_refl)) as [l L]. rewrite L. cbn [rbind]. destruct IH as [l' L']; [intros; apply H; right; assumption|]. rewrite L'. eexists; reflexivity. Qed.
  Lemma array_succ zs cst : forall m a, (forall n r, bound m n r -> good_fit zs cst r) -> (a_cst a == -(1) \/ a_cst a == cst) -> exists b, array_loop cp m a = Ok b.
  Proof.
    induction m as [|[n r] m IH]; intros a G C; cbn [array_loop]; [eauto|]. destruct (G n r (or_introl eq_refl)) as (G1 & G2 & _ & _ & G5 & nI & nG & G6).
    replace (negb (Qeq_bool (a_cst a) (-(1))) && negb (Qeq_bool (a_cst a) (fr_cst r)))%bool with false.
    2:{ symmetry. destruct C as [C|C]; [apply Qeq_bool_iff in C; rewrite C; reflexivity|]. assert (X : Qeq_bool (a_cst a) (fr_cst r) = true) by (apply Qeq_bool_iff; rewrite C, G2; reflexivity). rewrite X. apply andb_false_r. }
    destruct (columns_succ r (cells r)) as [l L].
    { intros i g I0. unfold cells in I0. unfold column. destruct (fr_tab r) as [|t tab] eqn:T; [destruct I0|]. destruct t as [|c0 t'] eqn:Et; [destruct I0|]. rewrite <- T in *. apply in_prod_iff in I0. destruct I0 as [I1 I2]. apply in_seq in I1. apply in_seq in I2.
      assert (H0 : In (c0 :: t') (fr_tab r)) by (rewrite T; left; reflexivity). destruct (G6 _ H0) as [Z1 Z2]. pose proof (Z2 c0 (or_introl eq_refl)) as Z3.
      apply column_succ. intros k Hk. rewrite G1, <- G5 in Hk. destruct (nth_error (fr_tab r) k) as [u|] eqn:U; [|apply nth_error_None in U; lia]. pose proof (nth_error_In _ _ U) as UI. destruct (G6 _ UI) as [Y1 Y2].
      destruct (nth_error u i) as [w|] eqn:W; [|apply nth_error_None in W; lia]. pose proof (Y2 _ (nth_error_In _ _ W)) as Y3. destruct (nth_error w g) as [v|] eqn:V; [|apply nth_error_None in V; lia]. exists u, w, v. auto. }
    rewrite L. cbn [rbind]. apply IH; [intros k v B; exact (G k v (or_intror B))|]. cbn [a_cst]. destruct (Qeq_bool (a_cst a) (-(1))) eqn:Q1; [right; exact G2|]. destruct C as [C|C]; [apply Qeq_bool_iff in C; congruence|right; exact C].
  Qed.
  Lemma min_succ i : forall m b, (forall n r, bound m n r -> exists x c, nth_error (fr_rows r) i = Some x /\ r_chi x = Some c) -> (m <> [] \/ b <> None) -> exists n c, min_chi m i b = Ok (Some (n, c)).
  Proof.
    induction m as [|[n r] m IH]; intros b H N; cbn [min_chi].
    - destruct N as [N|N]; [contradiction|]. destruct b as [[n c]|]; [eauto|contradiction].
    - destruct (H n r (or_introl eq_refl)) as (x & c & X & C). unfold vget. rewrite X. cbn [rbind]. rewrite C. apply IH; [intros k v B; exact (H k v (or_intror B))|]. right. destruct b as [[n' c']|]; [destruct (Qltb c c'); discriminate|discriminate].
  Qed.
  Lemma models_succ name z e g a : (forall k, exists f, model k false name z e g a = Ok f) -> forall n k, exists l, models model n k name z e g a = Ok l.
  Proof. intro H. induction n as [|n IH]; intro k; cbn [models]; [eauto|]. destruct (H k) as [f F]. rewrite F. cbn [rbind]. destruct (IH (S k)) as [l L]. rewrite L. eexists; reflexivity. Qed.
  Lemma check_succ zs cst : forall m, (forall n r, bound m n r -> good_fit zs cst r) -> check_results zs m = Ok tt.
  Proof.
    induction m as [|[n r] m IH]; intro G; cbn [check_results]; [reflexivity|]. destruct (G n r (or_introl eq_refl)) as (G1 & _ & G3 & _). rewrite G3, Nat.eqb_refl, G1. cbn [negb]. rewrite Nat.ltb_irrefl.
    replace (forallb (fun p => Qeq_bool (fst p) (snd p)) (combine zs zs)) with true; [cbn [negb]; apply IH; intros k v B; exact (G k v (or_intror B))|]. symmetry. clear. induction zs as [|z zs IH]; [reflexivity|]. cbn [combine forallb fst snd]. rewrite IH, andb_true_r. apply Qeq_bool_iff. reflexivity.
  Qed.
  Lemma extrema_succ m nspc zs cst : ordered m -> m <> [] -> (forall n r, bound m n r -> good_fit zs cst r) -> (forall k n z e g a, exists f, model k false n z e g a = Ok f) ->
    forall cs, (forall id z, In (id, z) cs -> exists x, In x zs /\ x == z) -> exists es, extrema model m nspc zs cs = Ok es /\ List.length es = List.length cs.
  Proof.
    intros O NE G MD. induction cs as [|c cs IH]; intro Z; cbn [extrema]; [exists []; split; reflexivity|].
    destruct (IH (fun id z H => Z id z (or_intror H))) as (es & E & LE). destruct (Z (fst c) (snd c)) as (x & X1 & X2); [left; destruct c; reflexivity|].
    destruct (find_z_spec (snd c) zs 0) as (F1 & _ & F2 & F3).
    assert (LT : (find_z (snd c) zs 0 < List.length zs)%nat). { destruct (Nat.eq_dec (find_z (snd c) zs 0) (0 + List.length zs)) as [Y|Y]; [exfalso; exact (F3 Y x X1 X2)|lia]. }
    assert (EX : exists e, extremum model m nspc zs c = Ok e).
    { unfold extremum. destruct (min_succ (find_z (snd c) zs 0) m None) as (n & ch & M).
      - intros n r B. destruct (G n r B) as (_ & _ & G3 & G4 & _). destruct (nth_error (fr_rows r) (find_z (snd c) zs 0)) as [y|] eqn:Y; [|apply nth_error_None in Y; lia]. destruct (r_chi y) as [v|] eqn:V; [eauto|]. exfalso. exact (G4 y (nth_error_In _ _ Y) V).
      - left. exact NE.
      - pose proof M as M'. apply (min_chi_ok _ m [] None) in M'; [|exact O|intros ? ? ? []]. destruct M' as [(r & B & (y & Y & _) & _) _]. cbn [app] in B. rewrite M. cbn [rbind]. pose proof B as B'. apply (mget_bound _ _ _ O) in B'. rewrite B'. cbn [rbind]. unfold vget. rewrite Y. cbn [rbind].
        destruct (models_succ n (snd c) (r_ebmv y) (r_igm y) (r_amp y) (fun k => MD k n (snd c) (r_ebmv y) (r_igm y) (r_amp y)) nspc 0%nat) as [f F]. rewrite F. eexists; reflexivity. }
    destruct EX as [e EX]. rewrite EX. cbn [rbind]. rewrite E. cbn [rbind]. exists (e :: es). split; [reflexivity|cbn [List.length]; congruence].
  Qed.
  Lemma compute_succ component fft phot ext dust s t zs cst : (forall c, results c s = []) -> (fft && phot)%bool = false -> ParseComponent component = Ok t -> s_tpls s <> [] -> NoDup (map fst (s_tpls s)) ->
    (forall c n, In c (components t) -> In n (map fst (s_tpls s)) -> exists r, fit (repeat c (List.length (s_spcs s))) fft n c ext (dusty t c dust) = Ok r /\ (c = scope_of t -> good_fit zs cst r)) ->
    (forall m a, right_array cp m a -> exists cs, pdf a = Ok cs /\ cs <> [] /\ forall id z, In (id, z) cs -> exists x, In x zs /\ x == z) -> (forall k n z e g a, exists f, model k false n z e g a = Ok f) ->
    exists s' es, comp component fft phot ext dust s = (s', Ok es).
  Proof.
    intros EMP FP PC NE ND FIT PDF MD. unfold compute. rewrite FP, PC. change (s_tpls (set_log fft s)) with (s_tpls s). destruct (s_tpls s) as [|p0 pl] eqn:TP; [contradiction|]. rewrite <- TP in *.
    assert (R0 : forall c, results c (set_log fft s) = []) by (intro c; rewrite <- (EMP c); destruct c; reflexivity).
    assert (OO : forall c, In c (components t) -> ordered (results c (set_log fft s))) by (intros c _; rewrite R0; constructor).
    destruct (tloop_succ t ext dust (map fst (s_tpls s)) (seq 0 (List.length (s_tpls s))) (set_log fft s)) as [s1 L].
    - change (s_tpls (set_log fft s)) with (s_tpls s). assert (G : forall k l', (forall j, nth_error l' j = nth_error (s_tpls s) (k + j)) -> Forall2 (fun j n => exists ty, nth_error (s_tpls s) j = Some (n, ty)) (seq k (List.length l')) (map fst l')).
      { intros k l'. revert k. induction l' as [|[n ty] l' IH]; intros k E; cbn [List.length seq map]; constructor.
        - exists ty. rewrite <- (E 0%nat : Some (n, ty) = nth_error (s_tpls s) (k + 0)) || (specialize (E 0%nat); rewrite Nat.add_0_r in E; rewrite <- E; reflexivity).
        - apply IH. intro j. rewrite Nat.add_succ_comm. exact (E (S j)). }
      apply (G 0%nat). reflexivity.
    - exact ND.
    - exact OO.
    - intros c n C N. split; [destruct (FIT c n C N) as (r & F & _); exists r; exact F|rewrite R0; intros []].
    - rewrite L. pose proof L as L0. apply tloop_ok in L0; [|exact OO]. destruct L0 as (L1 & _ & _ & _ & ns & L5 & _ & L6). apply seq_names in L5. subst ns.
      assert (SC : In (scope_of t) (components t)) by (destruct t; left; reflexivity). destruct (L6 _ SC) as (_ & O & K & B). change (s_tpls (set_log fft s)) with (s_tpls s) in *. change (s_spcs (set_log fft s)) with (s_spcs s) in *. change (s_log (set_log fft s)) with fft in *.
      set (m := results (scope_of t) s1) in *.
      assert (GF : forall n r, bound m n r -> good_fit zs cst r). { intros n r X. destruct (B n r X) as [Y|[Y1 Y2]]; [rewrite R0 in Y; destruct Y|]. destruct (FIT _ _ SC Y1) as (r' & F & G). replace r with r' by congruence. exact (G eq_refl). }
      assert (MN : m <> []). { intro X. assert (Y : In (fst p0) (keys m)) by (apply K; right; rewrite TP; left; reflexivity). rewrite X in Y. destruct Y. }
      destruct (array_succ zs cst m (mkArray [] [] [] (-(1))) GF) as [a A]; [left; reflexivity|]. unfold BuildChisquareArray. rewrite A. cbn [rbind].
      destruct (PDF m a (array_ok _ _ _ A)) as (cs & P & NC & Z). rewrite P. destruct (extrema_succ m (List.length (s_spcs s)) zs cst O MN GF MD cs Z) as (es & E & LE).
      change (s_spcs (set_log false s1)) with (s_spcs s1). rewrite L1. destruct m as [|[n0 r0] m'] eqn:EM; [contradiction|]. unfold buildExtremaResults. destruct (GF n0 r0 (or_introl eq_refl)) as (Z0 & _). rewrite Z0, (check_succ zs cst _ GF). cbn [rbind]. rewrite E. cbn [rbind].
      destruct es as [|e es]; [destruct cs; [contradiction|discriminate]|]. eauto.
  Qed.

  (** ** undefined candidates *)
  Lemma off_grid n r m nspc zs id z : List.length (fr_rows r) = List.length zs -> (forall x, In x zs -> ~ x == z) -> extremum model ((n, r) :: m) nspc zs (id, z) = UB.
  Proof.
    intros L N. unfold extremum. cbn [snd min_chi]. destruct (find_z_spec z zs 0) as (F1 & _ & F2 & _). assert (E : find_z z zs 0 = List.length zs).
    { destruct (Nat.eq_dec (find_z z zs 0) (List.length zs)) as [Y|Y]; [exact Y|]. exfalso. specialize (F2 ltac:(lia)). destruct F2 as [(x & X1 & X2) _]. exact (N x (nth_error_In _ _ X1) X2). }
    unfold vget. rewrite E, <- L. rewrite (proj2 (nth_error_None (fr_rows r) (List.length (fr_rows r)))) by lia. reflexivity.
  Qed.
  Lemma no_merit m nspc zs id z i : first_index zs z i -> (forall n r, bound m n r -> exists x, nth_error (fr_rows r) i = Some x /\ r_chi x = None) -> extremum model m nspc zs (id, z) = UB.
  Proof.
    intros F H. unfold extremum. cbn [snd]. rewrite (find_z_first _ _ _ F). assert (M : min_chi m i None = Ok None).
    { induction m as [|[n r] m IH]; [reflexivity|]. cbn [min_chi]. destruct (H n r (or_introl eq_refl)) as (x & X & C). unfold vget. rewrite X. cbn [rbind]. rewrite C. apply IH. intros k v B. exact (H k v (or_intror B)). }
    rewrite M. reflexivity.
  Qed.
  (** ** a failed fit *)
  Lemma failed component c fft ext dust n ty pl sp e s : ParseComponent component = Ok (One c) -> s_tpls s = (n, ty) :: pl -> s_spcs s = sp ->
    fit (repeat c (List.length sp)) fft n c ext (dusty (One c) c dust) = Throw e ->
    exists s', comp component fft false ext dust s = (s', Throw e) /\ s_spcs s' = repeat c (List.length sp) /\ s_tpls s' = (n, c) :: pl /\ s_log s' = fft.
  Proof.
    intros PC TP SP F. unfold compute. rewrite andb_false_r, PC. change (s_tpls (set_log fft s)) with (s_tpls s). rewrite TP. cbn [List.length seq template_loop]. unfold Solve. change (s_tpls (set_log fft s)) with (s_tpls s). rewrite TP. cbn [nth_error components component_loop set_types s_tpls s_spcs s_log set_log retype fst]. rewrite TP, SP. cbn [retype nth_error fst].
    replace (match c with NoContinuum => false | _ => dust end) with (dusty (One c) c dust) by (destruct c; reflexivity). rewrite F. eexists. split; [reflexivity|]. cbn [s_spcs s_tpls s_log].
  split; [reflexivity|]. split; [|reflexivity]. unfold set_types, set_log. cbn [s_tpls]. rewrite TP. reflexivity.
  Qed.
End Compute.
