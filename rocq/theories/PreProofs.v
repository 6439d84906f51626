From Coq Require Import String.
From Verif Require Import Base RangeModel CalzModel FitStoreModel FitStoreSpec FitStoreProofs FitStoreProps PreModel PreSpec.
Open Scope Q_scope.

(** ** the list of the fits *)
Lemma fits_from_nth z : forall l n j, nth_error (fits_from z n l) j = match nth_error l j with Some d => Some (record_fit z (n + j) (snd d)) | None => None end.
Proof.
  induction l as [|d t IH]; intros n j; [destruct j; reflexivity|]. destruct j as [|j]; cbn [fits_from nth_error]; [rewrite Nat.add_0_r; reflexivity|].
  rewrite IH. replace (S n + j)%nat with (n + S j)%nat by lia. reflexivity.
Qed.
Lemma fits_from_len z : forall l n, List.length (fits_from z n l) = List.length l.
Proof. induction l as [|d t IH]; intro n; [reflexivity|]. cbn. rewrite IH. reflexivity. Qed.
Lemma fits_from_z z : forall l n f, In f (fits_from z n l) -> f_z f = z.
Proof. induction l as [|d t IH]; intros n f I; [destruct I|]. destruct I as [<-|I]; [reflexivity|]. apply (IH _ _ I). Qed.
Lemma filter_all {A} (p : A -> bool) l : (forall x, In x l -> p x = true) -> filter p l = l.
Proof. induction l as [|h t IH]; intro H; [reflexivity|]. cbn. rewrite H by (left; reflexivity). rewrite IH; auto. intros x I; apply H; right; exact I. Qed.
Lemma filter_none {A} (p : A -> bool) l : (forall x, In x l -> p x = false) -> filter p l = [].
Proof. induction l as [|h t IH]; intro H; [reflexivity|]. cbn. rewrite H by (left; reflexivity). apply IH. intros x I; apply H; right; exact I. Qed.
Lemma details_len op reqs i : List.length (details op reqs i) = List.length reqs.
Proof. unfold details. apply map_length. Qed.

Section Fits.
  Variables (op : operator) (reqs : list request).
  Let nt := List.length reqs.
  Lemma all_fits_z : forall zs i n f, In f (fst (all_fits op reqs i n zs)) -> In (f_z f) zs.
  Proof.
    induction zs as [|z t IH]; intros i n f I; [destruct I|]. cbn [all_fits fst] in I. apply in_app_or in I. destruct I as [I|I].
    - left. symmetry. apply (fits_from_z _ _ _ _ I).
    - right. apply (IH _ _ _ I).
  Qed.
  Lemma distinct_cons z t : distinct (z :: t) -> distinct t /\ forall x, In x t -> ~ z == x.
  Proof.
    intro D. split.
    - intros i j x y N A B. apply (D (S i) (S j)); auto.
    - intros x I. apply In_nth_error in I. destruct I as (k & N). apply (D 0%nat (S k)); auto.
  Qed.
  Lemma all_fits_at : forall zs i n, distinct zs -> forall k z, nth_error zs k = Some z ->
    at_redshift z (fst (all_fits op reqs i n zs)) = fits_from z (n + k * nt) (details op reqs (i + k)).
  Proof.
    induction zs as [|y t IH]; intros i n D k z N; [destruct k; discriminate|]. apply distinct_cons in D. destruct D as [D Dy].
    cbn [all_fits fst]. unfold at_redshift. rewrite filter_app. destruct k as [|k].
    - injection N as <-. rewrite (filter_all _ (fits_from _ _ _)).
      + rewrite (filter_none _ (fst _)).
        * rewrite app_nil_r. cbn. rewrite !Nat.add_0_r. reflexivity.
        * intros f I. apply all_fits_z in I. destruct (Qeq_bool_spec y (f_z f)) as [E|E]; auto. exfalso. apply (Dy _ I E).
      + intros f I. rewrite (fits_from_z _ _ _ _ I). destruct (Qeq_bool_spec y y) as [E|E]; auto. exfalso. apply E. reflexivity.
    - cbn [nth_error] in N. rewrite (filter_none _ (fits_from _ _ _)).
      + cbn [app]. fold (at_redshift z (fst (all_fits op reqs (S i) (n + List.length (details op reqs i)) t))). rewrite (IH _ _ D k z N).
        rewrite details_len. fold nt. f_equal; [lia|]. f_equal; lia.
      + intros f I. rewrite (fits_from_z _ _ _ _ I). destruct (Qeq_bool_spec z y) as [E|E]; auto. exfalso.
        apply (Dy z). apply (nth_error_In _ _ N). symmetry; exact E.
  Qed.
  Lemma all_fits_nth : forall zs i n k j, (k < List.length zs)%nat -> (j < nt)%nat ->
    nth_error (snd (all_fits op reqs i n zs)) (k * nt + j) = nth_error (details op reqs (i + k)) j.
  Proof.
    induction zs as [|y t IH]; intros i n k j K J; [cbn in K; lia|]. cbn [all_fits snd]. destruct k as [|k].
    - cbn [Nat.mul plus]. rewrite nth_error_app1 by (rewrite details_len; exact J). rewrite Nat.add_0_r. reflexivity.
    - rewrite nth_error_app2; rewrite details_len; fold nt; [|cbn; lia]. replace (S k * nt + j - nt)%nat with (k * nt + j)%nat by (cbn; lia).
      cbn in K. rewrite IH by lia. f_equal. f_equal. lia.
  Qed.
End Fits.

Lemma rank_better a b z n m : same_rank (record_fit z n a) (record_fit z m b) = false ->
  ranks_before (record_fit z n a) (record_fit z m b) -> better a b.
Proof.
  unfold same_rank, ranks_before, better, record_fit. cbn. intros N [H|[H1 H2]]; [left; exact H|].
  destruct (Qeq_bool_spec (v_merit a) (v_merit b)) as [E|E]; [|tauto]. cbn in N.
  destruct (Qeq_bool_spec (Qabs (v_ampsig a)) (Qabs (v_ampsig b))) as [E2|E2]; [discriminate|]. right. split; auto.
  destruct (Qlt_le_dec (Qabs (v_ampsig b)) (Qabs (v_ampsig a))) as [L|L]; auto. exfalso. apply E2. apply Qle_antisym; auto.
Qed.
Lemma split_at {A} (l : list A) j x : nth_error l j = Some x -> exists b a, l = (b ++ x :: a)%list /\ List.length b = j.
Proof. intro N. apply nth_error_split in N. destruct N as (b & a & E & L). exists b, a. auto. Qed.

Lemma same_refl f : same_rank f f = true.
Proof. unfold same_rank. apply andb_true_intro. split; apply Qeq_bool_iff; reflexivity. Qed.

Lemma store_holds op reqs zs fs t : distinct zs -> zs <> [] ->
  AddAll (fs_new zs) (fst (all_fits op reqs 0 0 zs)) = Ok fs -> t_fs t = fs -> t_all t = snd (all_fits op reqs 0 0 zs) ->
  holds op reqs zs t.
Proof.
  intros D Ne E T1 T2. set (adds := fst (all_fits op reqs 0 0 zs)) in *. set (nt := List.length reqs).
  assert (G : forall f, In f adds -> in_grid zs (f_z f)).
  { intros f I. exists (f_z f). split; [apply (all_fits_z _ _ _ _ _ _ I)|reflexivity]. }
  assert (AT : forall k z, nth_error zs k = Some z -> at_redshift z adds = fits_from z (k * nt) (details op reqs k)).
  { intros k z N. unfold adds. rewrite (all_fits_at op reqs zs 0 0 D k z N). reflexivity. }
  destruct (history zs adds D G) as (s & Es & Gs & H). rewrite E in Es. injection Es as <-.
  split; [rewrite T1; exact Gs|]. split.
  { rewrite T1. apply (count_spec zs adds fs nt D G E).
    - intros z I. apply In_nth_error in I. destruct I as (k & N). rewrite (AT k z N), fits_from_len, details_len. apply Nat.le_refl.
    - right. destruct zs as [|z t0]; [tauto|]. exists z. split; [left; reflexivity|]. rewrite (AT 0%nat z eq_refl), fits_from_len, details_len. reflexivity. }
  intros i z N. destruct (H i z N) as (l & Nl & R & P & Fi & _). rewrite (AT i z N) in P, Fi. exists l. rewrite T1. split; [exact Nl|]. split; [exact R|].
  pose proof (nth_error_len _ _ _ N) as Li.
  assert (TAG : forall j d, nth_error (details op reqs i) j = Some d -> nth_error (t_all t) (i * nt + j) = Some d).
  { intros j d Nd. rewrite T2. unfold nt. rewrite (all_fits_nth op reqs zs 0 0 i j Li); [exact Nd|]. apply nth_error_len in Nd. rewrite details_len in Nd. exact Nd. }
  assert (MAP : map (fun f => nth_error (t_all t) (f_tag f)) (fits_from z (i * nt) (details op reqs i)) = map (fun q => Some (q_tpl q, op q i)) reqs).
  { assert (TAG' := TAG). clear -TAG'. unfold details in *. revert TAG'. generalize (i * nt)%nat as n. induction reqs as [|q r IH]; intros n TAG; [reflexivity|].
    cbn [map fits_from]. f_equal.
    - cbn [record_fit f_tag]. specialize (TAG 0%nat _ eq_refl). rewrite Nat.add_0_r in TAG. exact TAG.
    - apply IH. intros j d Nd. replace (S n + j)%nat with (n + S j)%nat by lia. apply TAG. exact Nd. }
  split; [rewrite <- MAP; apply Permutation_map; exact P|]. split.
  - intros f d I Nd. apply (Permutation_in _ P) in I. apply In_nth_error in I. destruct I as (j & Nj). rewrite fits_from_nth in Nj.
    destruct (nth_error (details op reqs i) j) as [d'|] eqn:Ed; [|discriminate]. injection Nj as <-. cbn in *. rewrite (TAG j d' Ed) in Nd. injection Nd as <-. auto.
  - intros f N0. assert (I : In f l) by (apply (nth_error_In _ _ N0)). assert (J := I). apply (Permutation_in _ P) in J. apply In_nth_error in J. destruct J as (j & Nj).
    (* the first of its rank class *)
    assert (FF : exists b a, fits_from z (i * nt) (details op reqs i) = (b ++ f :: a)%list /\ (forall g, In g b -> same_rank f g = false) /\ forall g, In g (b ++ a)%list -> ranks_before f g).
    { destruct l as [|f' l']; [discriminate|]. cbn in N0. injection N0 as ->.
      specialize (Fi f). cbn [filter] in Fi. rewrite same_refl in Fi.
      assert (X : exists b a, fits_from z (i * nt) (details op reqs i) = (b ++ f :: a)%list /\ filter (same_rank f) b = []).
      { clear -Fi. revert Fi. generalize (fits_from z (i * nt) (details op reqs i)) as m. generalize (filter (same_rank f) l') as r. intros r m. induction m as [|g m IH]; intro Fi; [discriminate|].
        cbn [filter] in Fi. destruct (same_rank f g) eqn:S.
        - injection Fi as <- _. exists [], m. split; reflexivity.
        - destruct (IH Fi) as (b & a & E & F). exists (g :: b), a. rewrite E. split; [reflexivity|]. cbn. rewrite S. exact F. }
      destruct X as (b & a & Eb & Fb). exists b, a. split; [exact Eb|]. split.
      - intros g Ig. destruct (same_rank f g) eqn:S; auto. assert (In g (filter (same_rank f) b)) by (apply filter_In; auto). rewrite Fb in H0. destruct H0.
      - intros g Ig. assert (Pl : Permutation l' (b ++ a)%list).
        { apply (Permutation_cons_inv (a := f)). rewrite P, Eb. symmetry. apply Permutation_middle. }
        apply (Permutation_in _ (Permutation_sym Pl)) in Ig. apply In_nth_error in Ig. destruct Ig as (k & Nk).
        apply (R 0%nat (S k)); auto. lia. }
    destruct FF as (b & a & Eb & Fb & Fr).
    set (jj := List.length b).
    assert (Njj : nth_error (fits_from z (i * nt) (details op reqs i)) jj = Some f).
    { rewrite Eb. unfold jj. rewrite nth_error_app2 by lia. rewrite Nat.sub_diag. reflexivity. }
    rewrite fits_from_nth in Njj. destruct (nth_error (details op reqs i) jj) as [d|] eqn:Ed; [|discriminate]. injection Njj as Ef.
    exists d. split; [rewrite <- Ef; cbn; apply TAG; exact Ed|].
    assert (Eo : map (fun q => op q i) reqs = map snd (details op reqs i)). { unfold details. rewrite map_map. reflexivity. }
    rewrite Eo. destruct (split_at _ _ _ Ed) as (db & da & Es & Ls).
    exists (map snd db), (map snd da). split; [rewrite Es, map_app; reflexivity|].
    assert (NB : forall k y, nth_error db k = Some y -> In (record_fit z (i * nt + k) (snd y)) b).
    { intros k y Ny. assert (Lk : (k < jj)%nat) by (apply nth_error_len in Ny; lia).
      assert (X : nth_error (fits_from z (i * nt) (details op reqs i)) k = Some (record_fit z (i * nt + k) (snd y))).
      { rewrite fits_from_nth, Es, nth_error_app1 by lia. rewrite Ny. reflexivity. }
      rewrite Eb, nth_error_app1 in X by (fold jj; lia). apply (nth_error_In _ _ X). }
    assert (NA : forall k y, nth_error da k = Some y -> In (record_fit z (i * nt + (S jj + k)) (snd y)) a).
    { intros k y Ny.
      assert (X : nth_error (fits_from z (i * nt) (details op reqs i)) (S jj + k) = Some (record_fit z (i * nt + (S jj + k)) (snd y))).
      { rewrite fits_from_nth, Es, nth_error_app2 by lia. replace (S jj + k - List.length db)%nat with (S k) by lia. cbn [nth_error]. rewrite Ny. reflexivity. }
      rewrite Eb, nth_error_app2 in X by (fold jj; lia). fold jj in X. replace (S jj + k - jj)%nat with (S k) in X by lia. cbn [nth_error] in X. apply (nth_error_In _ _ X). }
    split.
    + intros y Iy. apply in_map_iff in Iy. destruct Iy as (y' & <- & Iy). apply In_nth_error in Iy. destruct Iy as (k & Ny).
      pose proof (NB k y' Ny) as Ib. apply (rank_better _ _ z (i * nt + jj) (i * nt + k)); rewrite Ef.
      * apply Fb. exact Ib.
      * apply Fr. apply in_or_app. left. exact Ib.
    + intros y Iy. apply in_map_iff in Iy. destruct Iy as (y' & <- & Iy). apply In_nth_error in Iy. destruct Iy as (k & Ny).
      pose proof (NA k y' Ny) as Ia. assert (X : ranks_before f (record_fit z (i * nt + (S jj + k)) (snd y'))) by (apply Fr; apply in_or_app; right; exact Ia).
      rewrite <- Ef in X. exact X.
Qed.
