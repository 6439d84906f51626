(** C68, proofs: the amplitude offset, the searches. *)
From Coq Require Import String.
From Verif Require Import Base SortLib AxisModel ElemModel EfitModel EfitProofs ElistModel ElistSpec ElistProofs ElistProofs2.
Open Scope Q_scope.

(** * the amplitude offset *)
Definition agree (f g : list Q) (P : nat -> Q -> Q -> Prop) : Prop := List.length g = List.length f /\ forall t v w, nth_error f t = Some v -> nth_error g t = Some w -> P t v w.
Lemma offset_samples_ok axis p : forall samples f m, List.length axis = List.length f -> List.length m = List.length f -> NoDup samples ->
  (forall s, In s samples -> (0 <= s < Z.of_nat (List.length f))%Z) ->
  exists f' m', rfold (offset_sample axis p) samples (f, m) = Ok (f', m') /\ List.length f' = List.length f /\ List.length m' = List.length f /\
    forall t v x k, nth_error f t = Some v -> nth_error axis t = Some x -> nth_error m t = Some k ->
      exists v' k', nth_error f' t = Some v' /\ nth_error m' t = Some k' /\
        ((In (Z.of_nat t) samples /\ v' == v + p x * k /\ k' = 0) \/ (~ In (Z.of_nat t) samples /\ v' = v /\ k' = k)).
Proof.
  induction samples as [|s r IH]; intros f m La Lm ND B; cbn [rfold].
  - exists f, m. split; [reflexivity|]. split; [reflexivity|]. split; [exact Lm|]. intros t v x k F X M. exists v, k. split; [exact F|]. split; [exact M|]. right. split; [intros []|auto].
  - inversion ND as [|? ? Ns Nr]; subst. pose proof (B s (or_introl eq_refl)) as Bs. set (u := Z.to_nat s). assert (Eu : s = Z.of_nat u) by (unfold u; lia). rewrite Eu in *. clearbody u. clear Eu s.
    destruct (nth_error_lt f u) as (v & V); [lia|]. destruct (nth_error_lt axis u) as (x & X); [lia|]. destruct (nth_error_lt m u) as (k & K); [lia|].
    unfold offset_sample at 1. cbn [fst snd]. rewrite (zget_nat _ _ _ V), (zget_nat _ _ _ X), (zget_nat _ _ _ K). cbn [rbind].
    destruct (zset_nat f u v (v + p x * k) V) as (f1 & -> & Lf1 & F1). cbn [rbind]. destruct (zset_nat m u k 0 K) as (m1 & -> & Lm1 & M1). cbn [rbind].
    destruct (IH f1 m1) as (f' & m' & E & Lf' & Lm' & H); [congruence|congruence|exact Nr|intros s I; rewrite Lf1; apply B; right; exact I|].
    exists f', m'. split; [exact E|]. split; [congruence|]. split; [congruence|]. intros t v0 x0 k0 F0 X0 K0. destruct (Nat.eqb_spec t u) as [->|D].
    + rewrite V in F0. inversion F0; subst v0. rewrite X in X0. inversion X0; subst x0. rewrite K in K0. inversion K0; subst k0.
      destruct (H u (v + p x * k) x 0) as (v' & k' & A & C & R); [rewrite F1, Nat.eqb_refl; reflexivity|exact X|rewrite M1, Nat.eqb_refl; reflexivity|].
      exists v', k'. split; [exact A|]. split; [exact C|]. left. destruct R as [(I & _)|(_ & -> & ->)]; [contradiction|]. split; [left; reflexivity|]. split; [reflexivity|reflexivity].
    + destruct (H t v0 x0 k0) as (v' & k' & A & C & R); [rewrite F1; destruct (Nat.eqb_spec t u); [contradiction|exact F0]|exact X0|rewrite M1; destruct (Nat.eqb_spec t u); [contradiction|exact K0]|].
      exists v', k'. split; [exact A|]. split; [exact C|]. destruct R as [(I & R)|(I & R)]; [left; split; [right; exact I|exact R]|right]. split; [|exact R]. intros [J|J]; [apply D; lia|exact (I J)].
Qed.
Lemma inc_nodup l : increasing_Z l -> NoDup l.
Proof. intros H. induction H as [|a t H IH F]; constructor; [|exact IH]. intros I. rewrite Forall_forall in F. pose proof (F a I). lia. Qed.
Lemma offset_groups_ok es axis : (forall e p t, In e es -> In p (b_supp e) -> (fst p <= t <= snd p)%Z -> (0 <= t < Z.of_nat (List.length axis))%Z) ->
  forall gs f m, List.length f = List.length axis -> List.length m = List.length f -> (forall g, In g gs -> snd g <> [] /\ forall i, In i (snd g) -> (i < List.length es)%nat) ->
  exists f' m', rfold (offset_group es axis) gs (f, m) = Ok (f', m') /\ List.length f' = List.length f /\
    forall t v x k, nth_error f t = Some v -> nth_error axis t = Some x -> nth_error m t = Some k -> exists v', nth_error f' t = Some v' /\
      ((forall g, In g gs -> ~ supported es (snd g) (Z.of_nat t)) -> v' == v) /\
      (k == 0 -> v' == v) /\
      (forall g i r e, first_group es gs (Z.of_nat t) g -> snd g = i :: r -> nth_error es i = Some e -> v' == v + b_poly e x * k).
Proof.
  intros IN. induction gs as [|g0 gs IH]; intros f m Lf Lm B; cbn [rfold].
  - exists f, m. split; [reflexivity|]. split; [reflexivity|]. intros t v x k F X M. exists v. split; [exact F|]. split; [reflexivity|]. split; [reflexivity|]. intros g i r e (pre & post & E & _). destruct pre; discriminate.
  - destruct (B g0 (or_introl eq_refl)) as (NE & Bg). unfold offset_group at 1. destruct (Support_indexes es (snd g0) Bg) as (l & -> & Il & Sl). cbn [rbind].
    destruct (snd g0) as [|i0 r0] eqn:Eg; [congruence|]. destruct (nth_error_lt es i0 (Bg i0 (or_introl eq_refl))) as (e0 & N0). unfold vget. rewrite N0. cbn [rbind].
    destruct (offset_samples_ok axis (b_poly e0) l f m) as (f1 & m1 & -> & Lf1 & Lm1 & H1); [congruence|exact Lm|apply inc_nodup; exact Il| |].
    { intros s I. apply Sl in I. destruct I as (i & e & p & _ & N & _ & P & T). rewrite Lf. apply (IN e p s); [eapply nth_error_In; eauto|exact P|exact T]. }
    cbn [rbind]. destruct (IH f1 m1) as (f' & m' & E & Lf' & H2); [congruence|congruence|intros g G; apply B; right; exact G|]. exists f', m'. split; [exact E|]. split; [congruence|].
    intros t v x k F X M. destruct (H1 t v x k F X M) as (v1 & k1 & F1 & M1 & R1). destruct (H2 t v1 x k1 F1 X M1) as (v' & F2 & P1 & P2 & P3). exists v'. split; [exact F2|]. split; [|split].
    + intros NS. assert (N1 : ~ In (Z.of_nat t) l). { intros I. apply Sl in I. apply (NS g0 (or_introl eq_refl)). rewrite Eg. exact I. }
      destruct R1 as [(I & _)|(_ & -> & _)]; [contradiction|]. apply P1. intros g G. apply NS. right. exact G.
    + intros K0. destruct R1 as [(_ & V1 & ->)|(_ & -> & ->)]; [|apply P2; exact K0]. rewrite (P2 (Qeq_refl 0)), V1, K0. ring.
    + intros g i r e (pre & post & Egs & Su & Pr) Es N. destruct pre as [|g1 pre]; cbn [app] in Egs; inversion Egs; subst.
      * rewrite Eg in Es, Su. inversion Es; subst. rewrite N0 in N. inversion N; subst e0. apply Sl in Su. destruct R1 as [(_ & V1 & ->)|(I & _)]; [|contradiction]. rewrite (P2 (Qeq_refl 0)), V1. reflexivity.
      * assert (N1 : ~ In (Z.of_nat t) l). { intros I. apply Sl in I. apply (Pr g1 (or_introl eq_refl)). rewrite Eg. exact I. }
        destruct R1 as [(I & _)|(_ & -> & ->)]; [contradiction|]. apply (P3 g i r e); [|exact Es|exact N]. exists pre, post. split; [reflexivity|]. split; [exact Su|]. intros g' G'. apply Pr. right. exact G'.
Qed.
Lemma grouped_bounded pairs m n : grouped pairs m -> (forall k i, In (k, i) pairs -> (i < n)%nat) -> forall g, In g m -> snd g <> [] /\ forall i, In i (snd g) -> (i < n)%nat.
Proof.
  intros (_ & G & _) B [k l] I. destruct (G k l I) as (NE & E). cbn [snd]. split; [exact NE|]. intros i Ii. rewrite E in Ii. apply in_map_iff in Ii. destruct Ii as ([k' i'] & <- & F). apply filter_In in F. cbn [snd]. exact (B k' i' (proj1 F)).
Qed.
Lemma fitting_pairs_bounded es flt idx k i : In (k, i) (fitting_pairs es flt idx) -> (i < List.length es)%nat.
Proof.
  unfold fitting_pairs. rewrite in_flat_map. intros (j & _ & H). destruct (nth_error es j) as [e|] eqn:N; [|destruct H]. destruct (b_group e); [|destruct H].
  destruct (match flt with Some b => Bool.eqb b (b_em e) | None => true end); [|destruct H]. destruct H as [H|[]]. inversion H; subst. exact (nth_error_len _ _ _ N).
Qed.
Lemma Amplitude_offset es axis flux idx flt : List.length flux = List.length axis ->
  (forall e p t, In e es -> In p (b_supp e) -> (fst p <= t <= snd p)%Z -> (0 <= t < Z.of_nat (List.length axis))%Z) ->
  (forall i, In i idx -> (i < List.length es)%nat) ->
  exists gs flux', getFittingGroups es idx flt = Ok gs /\ addToSpectrumAmplitudeOffset es axis flux idx flt = Ok flux' /\ List.length flux' = List.length flux /\
    forall t v x, nth_error flux t = Some v -> nth_error axis t = Some x -> exists v', nth_error flux' t = Some v' /\
      ((forall g, In g gs -> ~ supported es (snd g) (Z.of_nat t)) -> v' == v) /\
      (forall g i r e, first_group es gs (Z.of_nat t) g -> snd g = i :: r -> nth_error es i = Some e -> v' == v + b_poly e x).
Proof.
  intros Lf IN B. destruct (Fitting es flt idx B) as (gs & Eg & G). unfold addToSpectrumAmplitudeOffset. rewrite Eg. cbn [rbind].
  destruct (offset_groups_ok es axis IN gs flux (map (fun _ => 1) flux) Lf) as (f' & m' & E & L & H); [apply map_length| |].
  { apply (grouped_bounded _ _ _ G). intros k i. apply fitting_pairs_bounded. }
  exists gs, f'. split; [reflexivity|]. rewrite E. cbn [rbind fst]. split; [reflexivity|]. split; [exact L|]. intros t v x F X.
  destruct (H t v x 1 F X) as (v' & F' & P1 & _ & P3); [rewrite nth_error_map, F; reflexivity|]. exists v'. split; [exact F'|]. split; [exact P1|].
  intros g i r e FG Es N. rewrite (P3 g i r e FG Es N). ring.
Qed.

(** * the searches *)
Lemma valid_bound dis es i : In i (GetModelValidElementsIndexes dis es) -> exists e, nth_error es i = Some e.
Proof. intros I. apply (Valid dis es) in I. destruct I as (e & N & _). eauto. Qed.
Lemma Nonzero dis es flt : exists l, getValidElementIndices dis es flt = Ok l /\ increasing_nat l /\
  forall i, In i l <-> valid dis es i /\ exists e a, nth_error es i = Some e /\ b_amp e = Some a /\ 0 < a /\ match flt with None => True | Some b => b_em e = b end.
Proof.
  unfold getValidElementIndices. destruct (Valid dis es) as (S0 & V). assert (B := valid_bound dis es).
  assert (G : forall idx, increasing_nat idx -> (forall i, In i idx -> exists e, nth_error es i = Some e) -> exists l, nonzero_loop es flt idx = Ok l /\ increasing_nat l /\
    forall i, In i l <-> In i idx /\ exists e a, nth_error es i = Some e /\ b_amp e = Some a /\ 0 < a /\ match flt with None => True | Some b => b_em e = b end).
  { induction idx as [|i t IH]; intros Si Bi; cbn [nonzero_loop]; [exists []; split; [reflexivity|]; split; [constructor|]; intros i; split; [intros []|intros ([] & _)]|].
    destruct (Bi i (or_introl eq_refl)) as (e & N). unfold vget. rewrite N. cbn [rbind]. inversion Si as [|? ? St Sf]; subst. destruct IH as (l & -> & Sl & Il); [exact St|intros k K; apply Bi; right; exact K|]. cbn [rbind].
    eexists. split; [reflexivity|]. assert (W : positive (b_amp e) = true <-> exists a, b_amp e = Some a /\ 0 < a) by apply positive_spec.
    assert (T : match flt with None => true | Some b => Bool.eqb b (b_em e) end = true <-> match flt with None => True | Some b => b_em e = b end).
    { destruct flt as [b|]; [|tauto]. destruct b, (b_em e); cbn; split; congruence. }
    assert (NO : forall k, In k l -> k = i -> False). { intros k K ->. apply Il in K. rewrite Forall_forall in Sf. pose proof (Sf i (proj1 K)). lia. }
    destruct (match flt with None => true | Some b => Bool.eqb b (b_em e) end) eqn:Ef; [destruct (positive (b_amp e)) eqn:Ep|].
    - split; [constructor; [exact Sl|]; apply Forall_forall; intros k K; apply Il in K; rewrite Forall_forall in Sf; apply Sf; exact (proj1 K)|]. intros k. cbn [In]. rewrite Il. split.
      + intros [<-|(K & R)]; [|auto]. split; [auto|]. destruct (proj1 W eq_refl) as (a & A & P). exists e, a. repeat (split; [assumption|]). apply T. reflexivity.
      + intros ([<-|K] & R); auto.
    - split; [exact Sl|]. intros k. cbn [In]. rewrite Il. split; [intros (K & R); auto|]. intros ([<-|K] & R); [exfalso|auto]. destruct R as (e' & a & N' & A & P & _). rewrite N in N'. inversion N'; subst e'.
      assert (X : false = true) by (apply W; eauto). discriminate.
    - split; [exact Sl|]. intros k. cbn [In]. rewrite Il. split; [intros (K & R); auto|]. intros ([<-|K] & R); [exfalso|auto]. destruct R as (e' & a & N' & _ & _ & F). rewrite N in N'. inversion N'; subst e'.
      assert (X : false = true) by (apply T; exact F). discriminate. }
  destruct (G _ S0 B) as (l & E & Sl & Il). exists l. split; [exact E|]. split; [exact Sl|]. intros i. rewrite Il, V. reflexivity.
Qed.
Lemma Strong dis es : exists b, GetModelStrongEmissionLinePresent dis es = Ok b /\
  (b = true <-> exists l a, bright dis es l a /\ h_strong l = true).
Proof.
  unfold GetModelStrongEmissionLinePresent. destruct (Valid dis es) as (_ & V). assert (B := valid_bound dis es).
  assert (G : forall idx, (forall i, In i idx -> exists e, nth_error es i = Some e) -> exists b, any_valid strong_line es idx = Ok b /\
    (b = true <-> exists i e l, In i idx /\ nth_error es i = Some e /\ In l (b_lines e) /\ strong_line l = true)).
  { induction idx as [|i t IH]; intros Bi; cbn [any_valid]; [exists false; split; [reflexivity|]; split; [discriminate|intros (i & e & l & [] & _)]|].
    destruct (Bi i (or_introl eq_refl)) as (e & N). unfold vget. rewrite N. cbn [rbind]. destruct (existsb strong_line (b_lines e)) eqn:X.
    - exists true. split; [reflexivity|]. split; [intros _|reflexivity]. apply existsb_exists in X. destruct X as (l & I & P). exists i, e, l. split; [left; reflexivity|auto].
    - destruct IH as (b & -> & Hb); [intros k K; apply Bi; right; exact K|]. exists b. split; [reflexivity|]. rewrite Hb. split; intros (k & e' & l & K & R).
      + exists k, e', l. split; [right; exact K|exact R].
      + destruct K as [<-|K]; [|exists k, e', l; auto]. exfalso. destruct R as (N' & I & P). rewrite N in N'. inversion N'; subst e'.
        assert (Y : existsb strong_line (b_lines e) = true) by (apply existsb_exists; eauto). congruence. }
  destruct (G _ B) as (b & E & H). exists b. split; [exact E|]. rewrite H. unfold bright, strong_line. split.
  - intros (i & e & l & I & N & L & P). apply andb_true_iff in P. destruct P as (P & A). apply andb_true_iff in P. destruct P as (Em & St). apply positive_spec in A. destruct A as (a & A & Pa).
    exists l, a. split; [|exact St]. split; [exists i, e; split; [apply V; exact I|auto]|]. auto.
  - intros (l & a & ((i & e & Vi & N & L) & Em & A & Pa) & St). exists i, e, l. split; [apply V; exact Vi|]. split; [exact N|]. split; [exact L|]. rewrite Em, St. cbn [andb]. apply positive_spec. eauto.
Qed.
(** the accumulator is the first brightest line *)
Definition best (seen : hline -> Prop) (acc : option (Q * string)) : Prop :=
  match acc with
  | None => forall l a, seen l -> h_em l = true -> h_amp l = Some a -> ~ 0 < a
  | Some (m, n) => (exists l, seen l /\ h_em l = true /\ h_amp l = Some m /\ 0 < m /\ h_name l = n) /\ forall l a, seen l -> h_em l = true -> h_amp l = Some a -> a <= m
  end.
Lemma best_line seen acc l : best seen acc -> best (fun x => seen x \/ x = l) (ha_line acc l).
Proof.
  intros B. unfold ha_line. destruct (h_em l) eqn:Em; cbn [negb].
  2:{ destruct acc as [[m n]|]; cbn [best] in *.
      - destruct B as ((x & X) & B). split; [exists x; tauto|]. intros y a [Y|Y] E; [exact (B y a Y E)|congruence].
      - intros y a [Y|Y] E; [exact (B y a Y E)|congruence]. }
  destruct (h_amp l) as [a|] eqn:A.
  2:{ destruct acc as [[m n]|]; cbn [best] in *.
      - destruct B as ((x & X) & B). split; [exists x; tauto|]. intros y b [Y|Y] E F; [exact (B y b Y E F)|congruence].
      - intros y b [Y|Y] E F; [exact (B y b Y E F)|congruence]. }
  destruct (Qltb_spec 0 a) as [P|P]; cbn [negb].
  - destruct acc as [[m n]|].
    + destruct B as ((x & X) & B). destruct (Qltb_spec m a) as [L|L]; cbn [best].
      * split; [exists l; split; [right; reflexivity|]; auto|]. intros y b [Y| ->] E F; [pose proof (B y b Y E F); lra|]. rewrite A in F. inversion F; lra.
      * split; [exists x; tauto|]. intros y b [Y| ->] E F; [exact (B y b Y E F)|]. rewrite A in F. inversion F; subst. lra.
    + cbn [best] in *. split; [exists l; split; [right; reflexivity|]; auto|]. intros y b [Y| ->] E F; [pose proof (B y b Y E F); lra|]. rewrite A in F. inversion F; lra.
  - destruct acc as [[m n]|]; cbn [best] in *.
    + destruct B as ((x & X1 & X2 & X3 & X4 & X5) & B). split; [exists x; tauto|]. intros y b [Y| ->] E F; [exact (B y b Y E F)|]. rewrite A in F. inversion F; subst. lra.
    + intros y b [Y| ->] E F; [exact (B y b Y E F)|]. rewrite A in F. inversion F; subst. exact P.
Qed.
Lemma best_ext (P R : hline -> Prop) acc : (forall l, P l <-> R l) -> best P acc -> best R acc.
Proof.
  intros E. destruct acc as [[m n]|]; cbn [best].
  - intros ((l & A & X) & B). split; [exists l; split; [apply E; exact A|exact X]|]. intros y a Y. apply B. apply E. exact Y.
  - intros B y a Y. apply B. apply E. exact Y.
Qed.
Lemma best_lines ls : forall seen acc, best seen acc -> best (fun x => seen x \/ In x ls) (fold_left ha_line ls acc).
Proof.
  induction ls as [|l t IH]; intros seen acc B; cbn [fold_left]; [apply (best_ext seen); [intros x; cbn [In]; tauto|exact B]|].
  apply (best_ext (fun x => (seen x \/ x = l) \/ In x t)); [intros x; cbn [In]; split; intros [[H|H]|H] || intros [H|[H|H]]; auto|]. apply IH. apply best_line. exact B.
Qed.
Lemma best_loop es idx : (forall i, In i idx -> exists e, nth_error es i = Some e) -> forall seen acc, best seen acc ->
  exists acc', ha_loop es idx acc = Ok acc' /\ best (fun x => seen x \/ exists i e, In i idx /\ nth_error es i = Some e /\ In x (b_lines e)) acc'.
Proof.
  induction idx as [|i t IH]; intros Bi seen acc B; cbn [ha_loop].
  - exists acc. split; [reflexivity|]. apply (best_ext seen); [|exact B]. intros l. split; [auto|]. intros [H|(i & e & [] & _)]. exact H.
  - destruct (Bi i (or_introl eq_refl)) as (e & N). unfold vget. rewrite N. cbn [rbind]. destruct (IH (fun k K => Bi k (or_intror K)) _ _ (best_lines (b_lines e) seen acc B)) as (acc' & E & H).
    exists acc'. split; [exact E|]. eapply best_ext; [|exact H]. intros l. cbn beta. split.
    + intros [[S0|L]|(k & e' & K & R)]; [left; exact S0|right; exists i, e; split; [left; reflexivity|auto]|right; exists k, e'; split; [right; exact K|exact R]].
    + intros [S0|(k & e' & [<-|K] & N' & L)]; [left; left; exact S0| |right; exists k, e'; auto]. rewrite N in N'. inversion N'; subst. left. right. exact L.
Qed.
Lemma Ha dis es : exists b, GetModelHaStrongest dis es = Ok b /\
  (b = true -> exists l m, bright dis es l m /\ h_name l = "Halpha"%string /\ forall l' a, bright dis es l' a -> a <= m) /\
  (forall l m, bright dis es l m -> h_name l = "Halpha"%string -> (forall l' a, bright dis es l' a -> h_name l' <> "Halpha"%string -> a < m) -> b = true).
Proof.
  unfold GetModelHaStrongest. destruct (Valid dis es) as (_ & V). destruct (best_loop es _ (valid_bound dis es) (fun _ => False) None) as (acc & -> & B); [intros l a []|]. cbn [rbind].
  eexists. split; [reflexivity|]. assert (S1 : forall l, (False \/ exists i e, In i (GetModelValidElementsIndexes dis es) /\ nth_error es i = Some e /\ In l (b_lines e)) <-> exists i e, valid dis es i /\ nth_error es i = Some e /\ In l (b_lines e)).
  { intros l. split; [intros [[]|(i & e & I & R)]|intros (i & e & I & R); right]; exists i, e; (split; [apply V; exact I|exact R]). }
  apply (best_ext _ _ _ S1) in B. destruct acc as [[m n]|]; cbn [best] in B; unfold halpha_em.
  - destruct B as ((l & L1 & L2 & L3 & L4 & <-) & B). split.
    + intros H. apply String.eqb_eq in H. exists l, m. split; [repeat (split; [assumption|]); assumption|]. split; [exact H|]. intros l' a (X1 & X2 & X3 & _). exact (B l' a X1 X2 X3).
    + intros l' m' (X1 & X2 & X3 & X4) Nm H. apply String.eqb_eq. destruct (String.string_dec (h_name l) "Halpha"%string) as [E|E]; [exact E|exfalso].
      assert (L5 : m < m') by (apply (H l m); [repeat (split; [assumption|]); assumption|exact E]). pose proof (B l' m' X1 X2 X3). lra.
  - split; [discriminate|]. intros l' m' (X1 & X2 & X3 & X4) _ _. exfalso. exact (B l' m' X1 X2 X3 X4).
Qed.
Lemma marg_acc logf es : forall c, marg_loop logf es c == c + log_sum logf es.
Proof.
  induction es as [|e t IH]; intros c; cbn [marg_loop log_sum]; [ring|]. destruct (b_out e); [apply IH|]. destruct (b_gauss e) as [m|]; [|apply IH]. destruct (Qltb 0 m); [|apply IH]. rewrite IH. ring.
Qed.
Lemma Marg logf es : (exists q, getScaleMargCorrection logf es None = Ok q /\ q == log_sum logf es) /\
  forall i e, nth_error es i = Some e -> exists q, getScaleMargCorrection logf es (Some i) = Ok q /\ q == log_sum logf [e].
Proof.
  split; [eexists; split; [reflexivity|]; rewrite marg_acc; ring|]. intros i e N. unfold getScaleMargCorrection, vget. rewrite N. cbn [rbind]. eexists. split; [reflexivity|]. rewrite marg_acc. ring.
Qed.
Lemma Amplitude es j : (forall e, (0 <= j)%Z -> nth_error es (Z.to_nat j) = Some e -> GetElementAmplitude es j = b_amp e) /\
  ((j < 0)%Z \/ (Z.of_nat (List.length es) <= j)%Z -> GetElementAmplitude es j = Some (-1)).
Proof.
  unfold GetElementAmplitude. split.
  - intros e P N. rewrite N. pose proof (nth_error_len _ _ _ N). destruct (Z.leb_spec 0 j); [|lia]. destruct (Z.ltb_spec j (Z.of_nat (List.length es))); [reflexivity|lia].
  - intros H. destruct (Z.leb_spec 0 j); cbn [andb]; [|reflexivity]. destruct (Z.ltb_spec j (Z.of_nat (List.length es))); [lia|reflexivity].
Qed.
Lemma line_index_spec id ls : forall i acc, match line_index id i ls acc with
  | Some j => (exists l, (i <= j)%nat /\ nth_error ls (j - i) = Some l /\ h_id l = id) \/ (acc = Some j /\ forall l, In l ls -> h_id l <> id)
  | None => acc = None /\ forall l, In l ls -> h_id l <> id end.
Proof.
  induction ls as [|l t IH]; intros i acc; cbn [line_index]; [destruct acc; [right|]; split; try reflexivity; intros l []|].
  specialize (IH (S i) (if Z.eqb (h_id l) id then Some i else acc)). destruct (line_index id (S i) t (if Z.eqb (h_id l) id then Some i else acc)) as [j|].
  - destruct IH as [(x & L & N & E)|(Eq & H)]; [left; exists x; split; [lia|]; split; [replace (j - i)%nat with (S (j - S i)) by lia; exact N|exact E]|].
    destruct (Z.eqb_spec (h_id l) id) as [D|D]; [inversion Eq; subst; left; exists l; split; [lia|]; rewrite Nat.sub_diag; auto|]. right. split; [exact Eq|]. intros x [<-|X]; [exact D|exact (H x X)].
  - destruct IH as (Eq & H). destruct (Z.eqb_spec (h_id l) id) as [D|D]; [discriminate|]. split; [exact Eq|]. intros x [<-|X]; [exact D|exact (H x X)].
Qed.
Lemma find_gen id es : forall i, match findElementIndex id i es with
  | Some (k, j) => (i <= k)%nat /\ (exists e l, nth_error es (k - i) = Some e /\ nth_error (b_lines e) j = Some l /\ h_id l = id) /\ forall m e l, (i <= m < k)%nat -> nth_error es (m - i) = Some e -> In l (b_lines e) -> h_id l <> id
  | None => forall e l, In e es -> In l (b_lines e) -> h_id l <> id end.
Proof.
  induction es as [|e t IH]; intros i; cbn [findElementIndex]; [intros e l []|]. pose proof (line_index_spec id (b_lines e) 0 None) as L. destruct (line_index id 0 (b_lines e) None) as [j|].
  - destruct L as [(l & _ & N & E)|(C & _)]; [|discriminate]. rewrite Nat.sub_0_r in N. split; [lia|]. split; [exists e, l; rewrite Nat.sub_diag; auto|]. intros m; lia.
  - destruct L as (_ & L). specialize (IH (S i)). destruct (findElementIndex id (S i) t) as [[k j]|].
    + destruct IH as (A & (x & l & N & R) & H). split; [lia|]. split; [exists x, l; replace (k - i)%nat with (S (k - S i)) by lia; auto|]. intros m y l' M Ny Il. destruct (Nat.eq_dec m i) as [->|D].
      * rewrite Nat.sub_diag in Ny. inversion Ny; subst. exact (L l' Il).
      * replace (m - i)%nat with (S (m - S i)) in Ny by lia. exact (H m y l' ltac:(lia) Ny Il).
    + intros x l [<-|X]; [apply L|apply IH; exact X].
Qed.
Lemma Find id es : match findElementIndex id 0 es with
  | Some (k, j) => (exists e l, nth_error es k = Some e /\ nth_error (b_lines e) j = Some l /\ h_id l = id) /\ forall m e l, (m < k)%nat -> nth_error es m = Some e -> In l (b_lines e) -> h_id l <> id
  | None => forall e l, In e es -> In l (b_lines e) -> h_id l <> id end.
Proof.
  pose proof (find_gen id es 0) as F. destruct (findElementIndex id 0 es) as [[k j]|]; [|exact F]. destruct F as (_ & A & B). rewrite Nat.sub_0_r in A. split; [exact A|]. intros m e l M N. apply (B m e l); [lia|rewrite Nat.sub_0_r; exact N].
Qed.
Lemma Ndof out es : List.length out = List.length es -> GetModelNonZeroElementsNDdl out es =
  List.length (filter (fun oe => negb (fst oe) && existsb (fun l => positive (h_amp l)) (b_lines (snd oe))) (combine out es)).
Proof.
  revert out. induction es as [|e t IH]; intros [|o u] L; try discriminate; [reflexivity|]. cbn [GetModelNonZeroElementsNDdl combine filter fst snd]. rewrite IH by (cbn in L; lia). unfold isAllAmplitudesNull.
  destruct o; cbn [negb andb]; [reflexivity|]. destruct (existsb (fun l => positive (h_amp l)) (b_lines e)); reflexivity.
Qed.
Lemma Load lines : (forall g l l', In g (LoadCatalogTwoMultilinesAE lines) -> In l g -> In l' g -> h_em l = h_em l') /\ (forall g, In g (LoadCatalogTwoMultilinesAE lines) -> g <> []) /\
  Permutation lines (concat (LoadCatalogTwoMultilinesAE lines)) /\ Permutation lines (concat (LoadCatalogOneLineByElement lines)) /\ (forall g, In g (LoadCatalogOneLineByElement lines) -> List.length g = 1%nat).
Proof.
  assert (G : forall g, In g (LoadCatalogTwoMultilinesAE lines) -> g <> [] /\ exists b, forall l, In l g -> h_em l = b).
  { intros g I. unfold LoadCatalogTwoMultilinesAE in I. apply filter_In in I. destruct I as (I & N). split; [intros ->; discriminate|].
    destruct I as [<-|[<-|[]]]; [exists false|exists true]; intros l F; apply filter_In in F; destruct F as (_ & F); [apply negb_true_iff in F|]; exact F. }
  split; [intros g l l' I A B; destruct (G g I) as (_ & b & H); rewrite (H l A), (H l' B); reflexivity|]. split; [intros g I; exact (proj1 (G g I))|]. split; [|split].
  - assert (C : concat (LoadCatalogTwoMultilinesAE lines) = (filter (fun l => negb (h_em l)) lines ++ filter h_em lines)%list).
    { unfold LoadCatalogTwoMultilinesAE. cbn [filter]. destruct (filter (fun l => negb (h_em l)) lines) as [|a p]; destruct (filter h_em lines) as [|b q]; cbn [List.length Nat.eqb negb concat app]; rewrite ?app_nil_r; reflexivity. }
    rewrite C. clear. induction lines as [|l t IH]; [constructor|]. cbn [filter]. destruct (h_em l); cbn [negb]; [apply Permutation_cons_app; exact IH|cbn [app]; constructor; exact IH].
  - clear G. unfold LoadCatalogOneLineByElement. induction lines as [|l t IH]; [constructor|]. cbn [map concat app]. constructor. exact IH.
  - intros g I. apply in_map_iff in I. destruct I as (l & <- & _). reflexivity.
Qed.
