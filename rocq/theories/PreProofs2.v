From Coq Require Import String.
From Verif Require Import Base RangeModel RangeSpec RangeProofs CalzModel FitStoreModel FitStoreSpec FitStoreProofs FitStoreProps PreModel PreSpec PreProofs.
Open Scope Q_scope.

(** ** the operator *)
Lemma fft_spec c pass zs : isfftprocessingActive c pass (List.length zs) = uses_fft c pass zs.
Proof.
  unfold isfftprocessingActive, uses_fft. destruct (if Nat.eqb pass 1 then k_fft1 c else k_fft2 c); rewrite ?andb_true_r, ?andb_false_r, ?andb_true_l, ?andb_false_l; auto.
  destruct (Nat.ltb_spec (List.length zs) 100) as [L|L]; destruct (Nat.leb_spec 100 (List.length zs)) as [M|M]; auto; lia.
Qed.
Lemma prepare_spec c fft op : op_ok c op -> prepare_operator c fft op = Some (fft, (k_ignore c && negb fft)%bool).
Proof.
  intro H. unfold prepare_operator, makeTFOperator. destruct op as [[k m]|]; cbn in H; [subst m|]; destruct (k_ignore c), fft; try destruct k; reflexivity.
Qed.

(** ** the decision *)
Lemma best_unique l r r' : best_fit l r -> best_fit l r' -> r = r'.
Proof.
  intros (b & a & E & B & A) (b' & a' & E' & B' & A'). rewrite E in E'.
  assert (C : forall x y, better x y -> as_good y x -> False).
  { intros x y [H|[H1 H2]] [K|[K1 K2]]; lra. }
  revert b' E' B'. revert B. clear E. induction b as [|h b IH]; intros B b' E' B'.
  - destruct b' as [|h' b']; [injection E' as <- _; reflexivity|]. exfalso. injection E' as <- E'. apply (C r' r).
    + apply B'. left; reflexivity.
    + apply A. rewrite E'. apply in_or_app. right. left. reflexivity.
  - destruct b' as [|h' b'].
    + exfalso. cbn in E'. injection E' as E0 E'. subst h. apply (C r r').
      * apply B. left; reflexivity.
      * apply A'. rewrite <- E'. apply in_or_app. right. left. reflexivity.
    + cbn in E'. injection E' as _ E'. apply (IH (fun y I => B y (or_intror I)) b' E'). intros y I. apply B'. right. exact I.
Qed.
Lemma holds_max op reqs zs t : holds op reqs zs t -> zs <> [] -> reqs <> [] -> List.length (fs_vals (t_fs t)) = List.length zs ->
  exists z f, FindMaxAmplitudeSigma (t_fs t) = Ok (Some (z, f)) /\ strongest op reqs zs (f_ampsig f).
Proof.
  intros (G & C & H) Nz Nr L.
  assert (NE : forall l, In l (fs_vals (t_fs t)) -> l <> []).
  { intros l I E. subst l. apply In_nth_error in I. destruct I as (i & N). pose proof (nth_error_len _ _ _ N) as Li. rewrite L in Li.
    destruct (nth_error_lt zs i Li) as (z & Nz'). destruct (H i z Nz') as (l & Nl & _ & P & _). rewrite N in Nl. injection Nl as <-.
    cbn in P. apply Permutation_nil in P. destruct reqs; [tauto|discriminate]. }
  destruct (FindMax_spec (t_fs t)) as (k & z & l & f & E & Nk & Nl & Nf & M); auto.
  { rewrite G; exact L. } { rewrite G; exact Nz. }
  exists z, f. split; [exact E|]. rewrite G in Nk.
  assert (BF : forall i l' g, nth_error (fs_vals (t_fs t)) i = Some l' -> nth_error l' 0 = Some g ->
    exists r, best_fit (map (fun q => op q i) reqs) r /\ f_ampsig g = v_ampsig r).
  { intros i l' g Nl' Ng. pose proof (nth_error_len _ _ _ Nl') as Li. rewrite L in Li. destruct (nth_error_lt zs i Li) as (z' & Nz').
    destruct (H i z' Nz') as (l'' & Nl'' & _ & _ & Fd & Fb). rewrite Nl' in Nl''. injection Nl'' as <-.
    destruct (Fb g Ng) as (d & Nd & B). exists (snd d). split; [exact B|]. apply (Fd g d); auto. apply (nth_error_In _ _ Ng). }
  split.
  - destruct (BF k l f Nl Nf) as (r & B & Er). exists k, r. split; [apply (nth_error_len _ _ _ Nk)|]. split; auto.
  - intros i r Li B. destruct (nth_error_lt (fs_vals (t_fs t)) i) as (l' & Nl'); [rewrite L; exact Li|].
    destruct l' as [|g l'']; [exfalso; apply (NE [] (nth_error_In _ _ Nl')); reflexivity|].
    destruct (BF i _ g Nl' eq_refl) as (r' & B' & Er). rewrite (best_unique _ _ _ B B'), <- Er. apply (M i _ g Nl' eq_refl).
Qed.
Lemma vals_len s l s' : AddAll s l = Ok s' -> List.length (fs_vals s') = List.length (fs_vals s).
Proof.
  revert s. induction l as [|f t IH]; intros s E; [injection E as <-; reflexivity|]. cbn [AddAll] in E.
  unfold Add in E. destruct (GetRedshiftIndex s (f_z f)) as [i|]; [|discriminate]. destruct (vget (fs_vals s) i) as [l'| |]; try discriminate. cbn [rbind] in E.
  destruct (vset (fs_vals s) i (insert_fit l' f)) as [v| |] eqn:V; try discriminate. cbn [rbind] in E. rewrite (IH _ E). cbn.
  assert (Li : (i < List.length (fs_vals s))%nat).
  { destruct (le_lt_dec (List.length (fs_vals s)) i) as [B|B]; auto. exfalso. clear -V B. revert V. generalize (insert_fit l' f) as x. revert i v B. induction (fs_vals s) as [|h r IHr]; intros i v B x V; [discriminate|].
    destruct i as [|i]; cbn in B; [lia|]. cbn [vset] in V. destruct (vset r i x) eqn:V'; try discriminate. apply (IHr i _ ltac:(lia) x V'). }
  destruct (vset_ok (fs_vals s) i (insert_fit l' f) Li) as (v' & V' & Lv & _). rewrite V in V'. injection V' as <-. exact Lv.
Qed.

(** the outcome of the decision, m the largest significance *)
Lemma evaluate_spec op reqs zs c t s : holds op reqs zs t -> zs <> [] -> reqs <> [] -> List.length (fs_vals (t_fs t)) = List.length zs ->
  exists m, strongest op reqs zs m /\ decided c s m (rmap o_comp (evaluateContinuumAmplitude c t s)) /\
    (forall s', evaluateContinuumAmplitude c t s = Ok s' -> s' = with_comp s (o_comp s')).
Proof.
  intros H Nz Nr L. destruct (holds_max op reqs zs t H Nz Nr L) as (z & f & E & St). exists (f_ampsig f). split; [exact St|].
  unfold evaluateContinuumAmplitude. rewrite E. cbn [rbind].
  destruct (Qltb_spec (f_ampsig f) (k_neg c)) as [A|A]; destruct (Qltb_spec (f_ampsig f) (k_null c)) as [B|B];
    destruct (Nat.eqb_spec (o_pass s) 1) as [P|P]; cbn [andb];
    (split; [unfold decided; destruct s as [x1 [] x3 x4 x5 x6 x7 x8]; cbn in *; repeat split; intros; try discriminate; try reflexivity; try congruence; try tauto;
             try (exfalso; lra); try (exfalso; destruct H1 as [H1|H1]; [lra|tauto])
            |intros s' Es; destruct s as [x1 [] x3 x4 x5 x6 x7 x8]; cbn in Es; try discriminate; injection Es as <-; reflexivity]).
Qed.

Lemma reqs_eq c fft zs ts : map (fun t : string * Z * Z => let (p, meik) := t in let (name, ebmv) := p in mkReq name fft (k_ignore c && negb fft)%bool ebmv meik zs) ts = requests c fft zs ts.
Proof. reflexivity. Qed.

(** ** PrecomputeContinuumFit *)
Lemma precompute_spec op c zs cand s ts : zs <> [] -> distinct zs -> op_ok c (o_op s) ->
  let fft := uses_fft c (o_pass s) zs in
  let s1 := with_op s (Some (fft, (k_ignore c && negb fft)%bool)) in
  templates c s1 cand fft = Ok ts -> (k_maxN c <= List.length ts)%nat -> ts <> [] ->
  let reqs := requests c fft zs ts in
  exists t m, holds op reqs zs t /\ t_snrmax t = snr_max (t_all t) /\
    (forall i q, (i < List.length zs)%nat -> In q reqs -> In (q_tpl q, op q i) (t_all t)) /\
    (forall d, In d (t_all t) -> exists i q, (i < List.length zs)%nat /\ In q reqs /\ d = (q_tpl q, op q i)) /\
    strongest op reqs zs m /\
    decided c s m (rmap (fun p => o_comp (snd p)) (PrecomputeContinuumFit op c zs cand s)) /\
    (forall t' s', PrecomputeContinuumFit op c zs cand s = Ok (t', s') -> t' = t /\ s' = with_comp (with_used s1 (Some t)) (o_comp s')).
Proof.
  intros Nz D OK fft s1 T M Nt reqs. unfold PrecomputeContinuumFit.
  assert (Fz : exists x, front zs = Ok x) by (destruct zs; [tauto|eexists; reflexivity]). destruct Fz as (x & ->). cbn [rbind].
  rewrite fft_spec. fold fft. rewrite (prepare_spec c fft _ OK). fold s1. rewrite T. cbn [rbind]. change (o_op s1) with (Some (fft, (k_ignore c && negb fft)%bool)).
  cbv iota beta. rewrite reqs_eq. fold reqs.
  destruct (all_fits op reqs 0 0 zs) as [fits all] eqn:AF.
  assert (G : forall f, In f fits -> in_grid zs (f_z f)).
  { intros f I. exists (f_z f). split; [apply (all_fits_z op reqs zs 0 0); rewrite AF; exact I|reflexivity]. }
  destruct (history zs fits D G) as (fs & E & _). rewrite E. cbn [rbind].
  set (t := mkStore fs all (snr_max all)).
  assert (H : holds op reqs zs t). { apply (store_holds op reqs zs fs t D Nz); [rewrite AF; exact E|reflexivity|rewrite AF; reflexivity]. }
  assert (Lr : List.length reqs = List.length ts) by (unfold reqs, requests; apply map_length).
  assert (Nr : reqs <> []) by (destruct ts; [tauto|discriminate]).
  destruct (Nat.ltb_spec (fs_count fs) (k_maxN c)) as [B|_]; [exfalso; destruct H as (_ & C & _); cbn in C; lia|].
  assert (Lv : List.length (fs_vals (t_fs t)) = List.length zs). { cbn. rewrite (vals_len _ _ _ E). cbn. apply map_length. }
  destruct (evaluate_spec op reqs zs c t (with_used s1 (Some t)) H Nz Nr Lv) as (m & St & De & Up).
  assert (NT : forall i j, (i < List.length zs)%nat -> (j < List.length reqs)%nat -> nth_error all (i * List.length reqs + j) = nth_error (details op reqs i) j).
  { intros i j Li Lj. pose proof (all_fits_nth op reqs zs 0 0 i j Li Lj) as X. rewrite AF in X. exact X. }
  exists t, m. split; [exact H|]. split; [reflexivity|]. split; [|split; [|split; [exact St|split]]].
  - intros i q Li Iq. apply In_nth_error in Iq. destruct Iq as (j & Nj). pose proof (nth_error_len _ _ _ Nj) as Lj. specialize (NT i j Li Lj).
    cbn. apply (nth_error_In all (i * List.length reqs + j)). rewrite NT. unfold details. rewrite nth_error_map, Nj. reflexivity.
  - assert (ALL : forall zs' i n d, In d (snd (all_fits op reqs i n zs')) -> exists k q, (i <= k < i + List.length zs')%nat /\ In q reqs /\ d = (q_tpl q, op q k)).
    { induction zs' as [|z t0 IH]; intros i n d I; [destruct I|]. cbn [all_fits snd] in I. apply in_app_or in I. cbn [List.length]. destruct I as [I|I].
      - unfold details in I. apply in_map_iff in I. destruct I as (q & <- & I). exists i, q. split; [lia|]. auto.
      - destruct (IH _ _ _ I) as (k & q & K & Iq & Ed). exists k, q. split; [lia|]. auto. }
    intros d I. cbn in I. specialize (ALL zs 0%nat 0%nat d). rewrite AF in ALL. destruct (ALL I) as (k & q & K & Iq & Ed). exists k, q. split; [lia|]. auto.
  - replace (rmap (fun p => o_comp (snd p)) (do s0 <- evaluateContinuumAmplitude c t (with_used s1 (Some t)); Ok (t, s0))) with (rmap o_comp (evaluateContinuumAmplitude c t (with_used s1 (Some t)))).
    + exact De.
    + destruct (evaluateContinuumAmplitude c t (with_used s1 (Some t))); reflexivity.
  - intros t' s' Ep. destruct (evaluateContinuumAmplitude c t (with_used s1 (Some t))) as [s2| |] eqn:Ev; cbn [rbind] in Ep; try discriminate. injection Ep as <- <-. split; auto.
Qed.
Lemma precompute_few op c zs cand s ts : zs <> [] -> distinct zs -> op_ok c (o_op s) ->
  let fft := uses_fft c (o_pass s) zs in
  templates c (with_op s (Some (fft, (k_ignore c && negb fft)%bool))) cand fft = Ok ts -> (List.length ts < k_maxN c)%nat ->
  PrecomputeContinuumFit op c zs cand s = Throw INTERNAL_ERROR.
Proof.
  intros Nz D OK fft T M. unfold PrecomputeContinuumFit.
  assert (Fz : exists x, front zs = Ok x) by (destruct zs; [tauto|eexists; reflexivity]). destruct Fz as (x & ->). cbn [rbind].
  rewrite fft_spec. fold fft. rewrite (prepare_spec c fft _ OK). rewrite T. cbn [rbind]. cbn [o_op with_op].
  rewrite reqs_eq. set (reqs := requests c fft zs ts).
  destruct (all_fits op reqs 0 0 zs) as [fits all] eqn:AF.
  assert (G : forall f, In f fits -> in_grid zs (f_z f)).
  { intros f I. exists (f_z f). split; [apply (all_fits_z op reqs zs 0 0); rewrite AF; exact I|reflexivity]. }
  destruct (history zs fits D G) as (fs & E & _). rewrite E. cbn [rbind].
  set (t := mkStore fs all (snr_max all)).
  assert (H : holds op reqs zs t). { apply (store_holds op reqs zs fs t D Nz); [rewrite AF; exact E|reflexivity|rewrite AF; reflexivity]. }
  destruct H as (_ & C & _). cbn in C. assert (List.length reqs = List.length ts) by (unfold reqs, requests; apply map_length).
  destruct (Nat.ltb_spec (fs_count fs) (k_maxN c)) as [B|B]; [reflexivity|lia].
Qed.
(** the best signal to noise *)
Lemma snr_max_spec l : 0 <= snr_max l /\ (forall d x, In d l -> v_snr (snd d) = Some x -> x <= snr_max l) /\
  (snr_max l == 0 \/ exists d x, In d l /\ v_snr (snd d) = Some x /\ snr_max l = x).
Proof.
  unfold snr_max. assert (G : forall (l : list (string * fitrec)) b, let r := fold_left (fun b d => match v_snr (snd d) with Some x => if Qltb b x then x else b | None => b end) l b in
    b <= r /\ (forall (d : string * fitrec) x, In d l -> v_snr (snd d) = Some x -> x <= r) /\ (r = b \/ exists d x, In d l /\ v_snr (snd d) = Some x /\ r = x)).
  { clear l. induction l as [|d t IH]; intros b r; [cbn in r; subst r; split; [apply Qle_refl|]; split; [intros d x []|left; reflexivity]|].
    cbn [fold_left] in r. set (b' := match v_snr (snd d) with Some x => if Qltb b x then x else b | None => b end) in *.
    destruct (IH b') as (A & B & C). fold r in A, B, C.
    assert (Hb : b <= b' /\ (forall x, v_snr (snd d) = Some x -> x <= b') /\ (b' = b \/ v_snr (snd d) = Some b')).
    { unfold b'. destruct (v_snr (snd d)) as [x|]; [|split; [apply Qle_refl|split; [discriminate|auto]]].
      destruct (Qltb_spec b x) as [L|L]; (split; [lra|split; [intros y E; injection E as <-; lra|auto]]). }
    destruct Hb as (B1 & B2 & B3). split; [lra|]. split.
    - intros d' x [->|I] E; [specialize (B2 x E); lra|apply (B d' x I E)].
    - destruct C as [C|(d' & x & I & E & C)].
      + destruct B3 as [B3|B3]; [left; congruence|]. right. exists d, b'. split; [left; reflexivity|]. split; auto.
      + right. exists d', x. split; [right; exact I|]. auto. }
  destruct (G l 0) as (A & B & C). split; [exact A|]. split; [exact B|]. destruct C as [C|C]; [left; rewrite C; reflexivity|right; exact C].
Qed.
