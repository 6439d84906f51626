From Coq Require Import String OrderedTypeEx.
From Verif Require Import Base SortLib AxisModel ElemModel EfitModel EfitProofs ElistModel ElistSpec ElistProofs.
Open Scope Q_scope.

(** * maps by tags *)
Lemma cmp_refl s : String.compare s s = Eq.
Proof. apply String_as_OT.cmp_eq. reflexivity. Qed.
Lemma cmp_eq a b : String.compare a b = Eq -> a = b.
Proof. apply String.compare_eq_iff. Qed.
Lemma cmp_trans a b c : String.compare a b = Lt -> String.compare b c = Lt -> String.compare a c = Lt.
Proof. intros H K. apply String_as_OT.cmp_lt in H, K. apply String_as_OT.cmp_lt. eapply String_as_OT.lt_trans; eauto. Qed.
Lemma cmp_gt a b : String.compare a b = Gt -> String.compare b a = Lt.
Proof. intros H. rewrite String.compare_antisym, H. reflexivity. Qed.
Definition key_lt (a b : string * list nat) : Prop := String.compare (fst a) (fst b) = Lt.
Lemma tag_push_in k i m : StronglySorted key_lt m -> StronglySorted key_lt (tag_push k i m) /\
  (forall k' l, In (k', l) (tag_push k i m) <-> (k' <> k /\ In (k', l) m) \/ (k' = k /\ ((exists l0, In (k, l0) m /\ l = (l0 ++ [i])%list) \/ ((forall l0, ~ In (k, l0) m) /\ l = [i])))).
Proof.
  induction m as [|[k1 l1] t IH]; intros S0; cbn [tag_push].
  - split; [repeat constructor|]. intros k' l. cbn [In]. split.
    + intros [H|[]]. inversion H; subst. right. split; [reflexivity|]. right. auto.
    + intros [(_ & [])|(-> & [(l0 & [] & _)|(_ & ->)])]. left. reflexivity.
  - inversion S0 as [|? ? St Sf]; subst. destruct (String.compare k k1) eqn:C.
    + apply cmp_eq in C. subst k1. assert (NT : forall l0, ~ In (k, l0) t). { intros l0 I. rewrite Forall_forall in Sf. pose proof (Sf _ I) as X. unfold key_lt in X. cbn [fst] in X. rewrite cmp_refl in X. discriminate. }
      split; [constructor; [exact St|]; eapply Forall_impl; [|exact Sf]; intros a H; exact H|]. intros k' l. cbn [In]. split.
      * intros [H|H]; [inversion H; subst; right; split; [reflexivity|]; left; exists l1; auto|]. left. split; [intros ->; exact (NT _ H)|right; exact H].
      * intros [(D & [H|H])|(-> & [(l0 & [H|H] & ->)|(H & _)])]; [inversion H; congruence|right; exact H|inversion H; left; reflexivity|exfalso; exact (NT _ H)|exfalso; apply (H l1); left; reflexivity].
    + assert (ALL : forall k' l, In (k', l) ((k1, l1) :: t) -> String.compare k k' = Lt).
      { intros k' l [H|H]; [inversion H; subst; exact C|]. rewrite Forall_forall in Sf. pose proof (Sf _ H) as X. unfold key_lt in X. cbn [fst] in X. exact (cmp_trans _ _ _ C X). }
      split. { constructor; [exact S0|]. apply Forall_forall. intros [k' l] I. exact (ALL k' l I). }
      intros k' l. split.
      * intros [H|H]; [inversion H; subst; right; split; [reflexivity|]; right; split; [|reflexivity]; intros l0 I; pose proof (ALL _ _ I) as X; rewrite cmp_refl in X; discriminate|].
        left. split; [|exact H]. intros ->. pose proof (ALL _ _ H) as X. rewrite cmp_refl in X. discriminate.
      * intros [(D & H)|(-> & [(l0 & H & _)|(_ & ->)])]; [right; exact H|exfalso; pose proof (ALL _ _ H) as X; rewrite cmp_refl in X; discriminate|left; reflexivity].
    + destruct (IH St) as (I1 & I2). pose proof (cmp_gt _ _ C) as C'. split.
      { constructor; [exact I1|]. apply Forall_forall. intros [k' l] I. unfold key_lt. cbn [fst]. apply I2 in I. destruct I as [(_ & I)|(-> & _)]; [|exact C']. rewrite Forall_forall in Sf. exact (Sf _ I). }
      assert (NK : k1 <> k) by (intros ->; rewrite cmp_refl in C; discriminate). intros k' l. cbn [In]. rewrite I2. split.
      * intros [H|[(D & H)|(-> & [(l0 & H & ->)|(H & ->)])]].
        -- inversion H; subst. left. auto.
        -- left. auto.
        -- right. split; [reflexivity|]. left. exists l0. auto.
        -- right. split; [reflexivity|]. right. split; [|reflexivity]. intros l0 [X|X]; [inversion X; congruence|exact (H l0 X)].
      * intros [(D & [H|H])|(-> & [(l0 & [H|H] & ->)|(H & ->)])].
        -- left. exact H.
        -- right. left. auto.
        -- inversion H; congruence.
        -- right. right. split; [reflexivity|]. left. exists l0. auto.
        -- right. right. split; [reflexivity|]. right. split; [|reflexivity]. intros l0 X. apply (H l0). right. exact X.
Qed.
Lemma grouped_push pairs m k i : grouped pairs m -> grouped (pairs ++ [(k, i)]) (tag_push k i m).
Proof.
  intros (G1 & G2 & G3). destruct (tag_push_in k i m G1) as (T1 & T2). split; [exact T1|]. split.
  - intros k' l I. apply T2 in I. rewrite filter_app, map_app. cbn [filter fst]. destruct I as [(D & I)|(-> & [(l0 & I & ->)|(N & ->)])].
    + destruct (G2 _ _ I) as (A & B). destruct (String.eqb_spec k k') as [E|E]; [congruence|]. cbn [map]. rewrite app_nil_r. auto.
    + destruct (G2 _ _ I) as (A & B). rewrite String.eqb_refl. cbn [map snd]. split; [destruct l0; discriminate|]. rewrite B. reflexivity.
    + rewrite String.eqb_refl. cbn [map snd]. split; [discriminate|]. assert (F : filter (fun p => String.eqb (fst p) k) pairs = []).
      { destruct (filter (fun p => String.eqb (fst p) k) pairs) as [|[a b] r] eqn:F; [reflexivity|]. exfalso. assert (I : In (a, b) (filter (fun p => String.eqb (fst p) k) pairs)) by (rewrite F; left; reflexivity).
        apply filter_In in I. destruct I as (I & E). cbn [fst] in E. apply String.eqb_eq in E. subst a. destruct (G3 _ _ I) as (l & L). exact (N l L). }
      rewrite F. reflexivity.
  - intros k' i' I. apply in_app_iff in I. destruct (String.eqb_spec k' k) as [->|D].
    + destruct (in_dec (list_eq_dec Nat.eq_dec) [] []) as [_|_]; [|].
      all: assert (EX : (exists l0, In (k, l0) m) \/ forall l0, ~ In (k, l0) m) by (clear; induction m as [|[a b] t IH]; [right; intros l0 []|]; destruct (String.eqb_spec a k) as [->|N]; [left; exists b; left; reflexivity|]; destruct IH as [(l0 & IH)|IH]; [left; exists l0; right; exact IH|right; intros l0 [E|E]; [inversion E; congruence|exact (IH l0 E)]]).
      all: destruct EX as [(l0 & E)|E]; [exists (l0 ++ [i])%list; apply T2; right; split; [reflexivity|]; left; exists l0; auto|exists [i]; apply T2; right; split; [reflexivity|]; right; auto].
    + destruct I as [I|[I|[]]]; [|inversion I; congruence]. destruct (G3 _ _ I) as (l & L). exists l. apply T2. left. auto.
Qed.
Lemma grouped_nil : grouped [] [].
Proof. split; [constructor|]. split; [intros k l []|intros k i []]. Qed.

Lemma velfit_element_ok em i e : forall pairs m, grouped pairs m -> grouped (pairs ++ map (fun l => (velfit_tag l, i)) (filter (fun l => Bool.eqb (h_em l) em) (b_lines e))) (velfit_element em i m e).
Proof.
  unfold velfit_element. generalize (b_lines e) as ls. induction ls as [|l t IH]; intros pairs m G; cbn [fold_left filter map]; [rewrite app_nil_r; exact G|].
  destruct (Bool.eqb (h_em l) em); [|apply IH; exact G]. cbn [map]. replace (pairs ++ (velfit_tag l, i) :: map (fun l => (velfit_tag l, i)) (filter (fun l => Bool.eqb (h_em l) em) t))%list
    with ((pairs ++ [(velfit_tag l, i)]) ++ map (fun l => (velfit_tag l, i)) (filter (fun l => Bool.eqb (h_em l) em) t))%list by (rewrite <- app_assoc; reflexivity).
  apply IH. apply grouped_push. exact G.
Qed.
Lemma velfit_loop_ok em es idx : (forall i, In i idx -> (i < List.length es)%nat) -> forall pairs m, grouped pairs m ->
  exists m', velfit_loop em es idx m = Ok m' /\ grouped (pairs ++ velfit_pairs es em idx) m'.
Proof.
  induction idx as [|i t IH]; intros B pairs m G; cbn [velfit_loop velfit_pairs flat_map]; [exists m; rewrite app_nil_r; auto|].
  unfold vget. destruct (nth_error es i) as [e|] eqn:N; [|apply nth_error_None in N; pose proof (B i (or_introl eq_refl)); lia]. cbn [rbind].
  rewrite app_assoc. apply IH; [intros k K; apply B; right; exact K|]. apply velfit_element_ok. exact G.
Qed.
Lemma Velfit dis es em : exists m, GetModelVelfitGroups dis es em = Ok (map snd m) /\ grouped (velfit_pairs es em (GetModelValidElementsIndexes dis es)) m.
Proof.
  unfold GetModelVelfitGroups. destruct (velfit_loop_ok em es (GetModelValidElementsIndexes dis es)) with (pairs := @nil (string * nat)) (m := @nil (string * list nat)) as (m & -> & G).
  - intros i I. apply (Valid dis es) in I. destruct I as (e & N & _). apply nth_error_Some. congruence.
  - exact grouped_nil.
  - exists m. split; [reflexivity|exact G].
Qed.
Lemma fitting_loop_ok es flt idx : (forall i, In i idx -> (i < List.length es)%nat) -> forall pairs m, grouped pairs m ->
  exists m', fitting_loop es flt idx m = Ok m' /\ grouped (pairs ++ fitting_pairs es flt idx) m'.
Proof.
  induction idx as [|i t IH]; intros B pairs m G; cbn [fitting_loop fitting_pairs flat_map]; [exists m; rewrite app_nil_r; auto|].
  assert (Bt : forall k, In k t -> (k < List.length es)%nat) by (intros k K; apply B; right; exact K).
  unfold vget. destruct (nth_error es i) as [e|] eqn:N; [|apply nth_error_None in N; pose proof (B i (or_introl eq_refl)); lia]. cbn [rbind].
  destruct (match flt with Some b => Bool.eqb b (b_em e) | None => true end); cbn [negb].
  - destruct (b_group e) as [k|]; [|apply IH; assumption]. rewrite app_assoc. apply IH; [exact Bt|]. apply grouped_push. exact G.
  - destruct (b_group e) as [k|]; apply IH; assumption.
Qed.
Lemma Fitting es flt idx : (forall i, In i idx -> (i < List.length es)%nat) -> exists m, getFittingGroups es idx flt = Ok m /\
  grouped (fitting_pairs es flt (match idx with [] => seq 0 (List.length es) | _ => idx end)) m.
Proof.
  intros B. unfold getFittingGroups. destruct idx as [|i t].
  - destruct (fitting_loop_ok es flt (seq 0 (List.length es))) with (pairs := @nil (string * nat)) (m := @nil (string * list nat)) as (m & E & G); [intros i I; apply in_seq in I; lia|exact grouped_nil|]. exists m. auto.
  - destruct (fitting_loop_ok es flt (i :: t) B) with (pairs := @nil (string * nat)) (m := @nil (string * list nat)) as (m & E & G); [exact grouped_nil|]. exists m. auto.
Qed.

(** * supports *)
Lemma zr_in a b t : In t (zrange a b) <-> (a <= t <= b)%Z.
Proof.
  unfold zrange. rewrite in_map_iff. split.
  - intros (k & <- & K). apply in_seq in K. lia.
  - intros H. exists (Z.to_nat (t - a)). split; [lia|]. apply in_seq. lia.
Qed.
Lemma support_samples_ok es idx : (forall i, In i idx -> (i < List.length es)%nat) -> exists l, support_samples es idx = Ok l /\ forall t, In t l <-> supported es idx t.
Proof.
  induction idx as [|i r IH]; intros B; cbn [support_samples]; [exists []; split; [reflexivity|]; intros t; split; [intros []|intros (i & e & p & [] & _)]|].
  destruct (nth_error es i) as [e|] eqn:N; [|apply nth_error_None in N; pose proof (B i (or_introl eq_refl)); lia]. unfold vget. rewrite N. cbn [rbind].
  destruct IH as (l & -> & H); [intros k K; apply B; right; exact K|]. cbn [rbind]. eexists. split; [reflexivity|]. intros t. destruct (b_out e) eqn:O.
  - rewrite H. split; [intros (j & e' & p & J & R); exists j, e', p; split; [right; exact J|exact R]|]. intros (j & e' & p & [<-|J] & R); [rewrite N in R; destruct R as (R & Oe & _); congruence|exists j, e', p; auto].
  - rewrite in_app_iff, in_flat_map, H. split.
    + intros [(p & P & T)|(j & e' & p & J & R)]; [apply zr_in in T; exists i, e, p; split; [left; reflexivity|]; auto|exists j, e', p; split; [right; exact J|exact R]].
    + intros (j & e' & p & [<-|J] & R); [|right; exists j, e', p; auto]. left. destruct R as (R1 & R2 & R3 & R4). rewrite N in R1. inversion R1; subst e'. exists p. split; [exact R3|]. apply zr_in. exact R4.
Qed.
Lemma Support_indexes es idx : (forall i, In i idx -> (i < List.length es)%nat) -> exists l, getSupportIndexes es idx = Ok l /\ increasing_Z l /\ forall t, In t l <-> supported es idx t.
Proof.
  intros B. unfold getSupportIndexes. destruct (support_samples_ok es idx B) as (l & -> & H). cbn [rbind]. eexists. split; [reflexivity|].
  destruct (usort_Z l) as (U1 & U2). split; [exact U1|]. intros t. rewrite U2. apply H.
Qed.
