From Coq Require Import String Lqa.
From Verif Require Import Base PhotModel PhotSpec PhotProofs TfsvModel TfsvSpec TfsvProofs.
Open Scope Q_scope.

(** * the array *)
Lemma column_at_ok tab a b : forall n k l, column_at tab a b n k = Ok l -> List.length l = n /\ forall i v, nth_error l i = Some v -> exists t c, nth_error tab (k + i) = Some t /\ nth_error t a = Some c /\ nth_error c b = Some v.
Proof.
  induction n as [|n IH]; intros k l E; cbn [column_at] in E.
  - inversion E; subst. split; [reflexivity|]. intros [|i] v H; discriminate.
  - unfold vget in E. destruct (nth_error tab k) as [t|] eqn:T; [|discriminate]. cbn [rbind] in E. destruct (nth_error t a) as [c|] eqn:C; [|discriminate]. cbn [rbind] in E. destruct (nth_error c b) as [v|] eqn:V; [|discriminate]. cbn [rbind] in E.
    destruct (column_at tab a b n (S k)) as [l'| |] eqn:R; try discriminate. inversion E; subst. apply IH in R. destruct R as [R1 R2]. split; [cbn [List.length]; congruence|].
    intros [|i] w H; [|change (nth_error l' i = Some w) in H].
    + rewrite Nat.add_0_r. inversion H; subst. exists t, c. auto.
    + destruct (R2 _ _ H) as (t' & c' & X). rewrite <- Nat.add_succ_comm. exists t', c'. exact X.
Qed.
Lemma columns_ok r : forall ks l, columns r ks = Ok l -> Forall2 (fun p col => column r (fst p) (snd p) = Ok col) ks l.
Proof.
  induction ks as [|[a b] ks IH]; intros l E; cbn [columns] in E; [inversion E; constructor|].
  destruct (column r a b) as [c| |] eqn:C; try discriminate. cbn [rbind] in E. destruct (columns r ks) as [l'| |] eqn:R; try discriminate. inversion E; subst. constructor; [exact C|auto].
Qed.
Lemma F2_nth {A B} (P : A -> B -> Prop) l l' : Forall2 P l l' -> forall i a, nth_error l i = Some a -> exists b, nth_error l' i = Some b /\ P a b.
Proof. induction 1 as [|x y l l' H F IH]; intros [|i] a E; try discriminate; cbn [nth_error] in *; [inversion E; subst; eauto|eauto]. Qed.
Lemma F2_len {A B} (P : A -> B -> Prop) l l' : Forall2 P l l' -> List.length l = List.length l'.
Proof. induction 1; cbn [List.length]; congruence. Qed.
Lemma list_prod_nth nG : forall nI s i g, (i < nI)%nat -> (g < nG)%nat -> nth_error (list_prod (seq s nI) (seq 0 nG)) (i * nG + g) = Some (s + i, g)%nat.
Proof.
  induction nI as [|nI IH]; intros s i g Hi Hg; [lia|]. cbn [seq list_prod]. destruct i as [|i].
  - cbn [Nat.mul Nat.add]. rewrite nth_error_app1 by (rewrite map_length, seq_length; lia). rewrite (map_nth_error (fun y => (s, y)) g (seq 0 nG) (d := g)); [rewrite Nat.add_0_r; reflexivity|].
    rewrite (nth_error_nth' _ 0%nat) by (rewrite seq_length; lia). rewrite seq_nth by lia. reflexivity.
  - rewrite nth_error_app2 by (rewrite map_length, seq_length; cbn [Nat.mul]; lia). rewrite map_length, seq_length. replace (S i * nG + g - nG)%nat with (i * nG + g)%nat by (cbn [Nat.mul]; lia).
    rewrite IH by lia. rewrite Nat.add_succ_comm. reflexivity.
Qed.
Lemma list_prod_len {A B} (l : list A) (l' : list B) : List.length (list_prod l l') = (List.length l * List.length l')%nat.
Proof. apply prod_length. Qed.
Lemma table_ok r cols : columns r (cells r) = Ok cols -> table_columns r cols.
Proof.
  intro E. apply columns_ok in E. unfold cells in E. destruct (fr_tab r) as [|t tab] eqn:T.
  - inversion E; subst. exists 0%nat, 0%nat. rewrite T. split; [intros t H; discriminate|]. split; [reflexivity|]. split; [reflexivity|]. split; [reflexivity|]. intros; lia.
  - destruct t as [|c t'] eqn:Et.
    + inversion E; subst. exists 0%nat, 0%nat. rewrite T. split; [intros t H; cbn in H; inversion H; subst; split; [reflexivity|intros c H'; discriminate]|]. split; [discriminate|]. split; [reflexivity|]. split; [reflexivity|]. intros; lia.
    + set (nI := List.length (c :: t')) in E. set (nG := List.length c) in E. exists nI, nG. rewrite T. split; [intros u H; cbn in H; inversion H; subst u; split; [reflexivity|intros c0 H'; cbn in H'; inversion H' as [H1]; unfold nG; rewrite H1; reflexivity]|].
      split; [discriminate|]. split; [discriminate|]. split; [rewrite <- (F2_len _ _ _ E), list_prod_len, !seq_length; reflexivity|].
      intros i g Hi Hg. destruct (F2_nth _ _ _ E _ _ (list_prod_nth nG nI 0 i g Hi Hg)) as (col & N & C). cbn [fst snd Nat.add] in C. exists col. split; [exact N|]. unfold column in C. apply column_at_ok in C. destruct C as [C1 C2]. split; [exact C1|].
      intros k v V. destruct (C2 _ _ V) as (u & w & X). cbn [Nat.add] in X. rewrite T in X. exists u, w. exact X.
Qed.
Lemma array_loop_ok cp : forall m a b, array_loop cp m a = Ok b -> exists colss, Forall2 (fun p cols => table_columns (snd p) cols) m colss /\ a_chi b = (a_chi a ++ List.concat colss)%list /\
  a_prior b = (a_prior a ++ List.concat (map (fun p => map (fun _ => cp (List.length (fr_zs (snd (fst p))))) (snd p)) (combine m colss)))%list /\
  (a_zs a <> [] -> a_zs b = a_zs a) /\ (a_zs a = [] -> forall n r m', m = (n, r) :: m' -> fr_zs r <> [] -> a_zs b = fr_zs r) /\
  (~ a_cst a == -(1) -> a_cst b = a_cst a /\ forall n r, bound m n r -> a_cst a == fr_cst r) /\
  ((forall n r, bound m n r -> ~ fr_cst r == -(1)) -> forall n r, bound m n r -> a_cst b == fr_cst r).
Proof.
  induction m as [|[n r] m IH]; intros a b E; cbn [array_loop] in E.
  - inversion E; subst. exists []. split; [constructor|]. cbn [List.concat combine map]. rewrite !app_nil_r. do 2 (split; [reflexivity|]). split; [reflexivity|]. split; [discriminate|]. split; [split; [reflexivity|intros ? ? []]|intros ? ? ? []].
  - destruct (negb (Qeq_bool (a_cst a) (-(1))) && negb (Qeq_bool (a_cst a) (fr_cst r)))%bool eqn:G; [discriminate|].
    destruct (columns r (cells r)) as [cs| |] eqn:C; try discriminate. cbn [rbind] in E. apply table_ok in C. apply IH in E. clear IH. cbn [a_chi a_prior a_zs a_cst] in E. destruct E as (colss & F & E1 & E2 & E3 & E4 & E5 & E6).
    exists (cs :: colss). split; [constructor; [exact C|exact F]|]. cbn [combine map List.concat fst snd]. rewrite <- !app_assoc in *. split; [exact E1|]. split; [exact E2|].
    split; [intro H; destruct (a_zs a) eqn:Z; [contradiction|]; apply E3; discriminate|].
    split; [intros H n0 r0 m' Em NZ; inversion Em; subst; rewrite H in *; apply E3; exact NZ|].
    assert (CS : ~ a_cst a == -(1) -> a_cst a == fr_cst r).
    { intro N. destruct (Qeq_bool (a_cst a) (-(1))) eqn:Q1; [apply Qeq_bool_iff in Q1; contradiction|]. cbn [negb andb] in G. destruct (Qeq_bool (a_cst a) (fr_cst r)) eqn:Q2; [apply Qeq_bool_iff; exact Q2|discriminate]. }
    split.
    + intro N. destruct (Qeq_bool (a_cst a) (-(1))) eqn:Q1; [apply Qeq_bool_iff in Q1; contradiction|]. destruct (E5 N) as [H1 H2]. split; [exact H1|]. intros k v [B|B]; [inversion B; subst; exact (CS N)|exact (H2 _ _ B)].
    + intros A k v [B|B].
      * inversion B; subst k v. destruct (Qeq_bool (a_cst a) (-(1))) eqn:Q1.
        -- destruct E5 as [H1 _]; [apply (A n); left; reflexivity|]. rewrite H1. reflexivity.
        -- assert (N : ~ a_cst a == -(1)) by (intro X; apply Qeq_bool_iff in X; congruence). destruct (E5 N) as [H1 _]. rewrite H1. exact (CS N).
      * apply (E6 (fun n r H => A n r (or_intror H)) _ _ B).
Qed.
Lemma array_ok cp m a : BuildChisquareArray cp m = Ok a -> right_array cp m a.
Proof.
  intro E. unfold BuildChisquareArray in E. apply array_loop_ok in E. cbn [a_chi a_prior a_zs a_cst app] in E. destruct E as (colss & F & E1 & E2 & _ & E4 & _ & E6). exists colss. repeat (split; [assumption|]). split; [exact (E4 eq_refl)|exact E6].
Qed.

(** * the candidates *)
Lemma find_z_spec z : forall zs i, (find_z z zs i <= i + List.length zs)%nat /\ (i <= find_z z zs i)%nat /\ ((find_z z zs i < i + List.length zs)%nat -> first_index zs z (find_z z zs i - i)) /\ (find_z z zs i = i + List.length zs -> forall x, In x zs -> ~ x == z)%nat.
Proof.
  induction zs as [|x zs IH]; intro i; cbn [find_z List.length].
  - split; [lia|]. split; [lia|]. split; [lia|]. intros _ x [].
  - destruct (Qeq_bool x z) eqn:E.
    + split; [lia|]. split; [lia|]. split; [|intro H; lia]. intros _. rewrite Nat.sub_diag. split; [exists x; split; [reflexivity|apply Qeq_bool_iff; exact E]|intros j y L; lia].
    + destruct (IH (S i)) as (I1 & I2 & I3 & I4). split; [lia|]. split; [lia|].
      assert (NX : ~ x == z) by (intro X; apply Qeq_bool_iff in X; congruence). split.
      * intro L. specialize (I3 ltac:(lia)). destruct I3 as [(y & Y1 & Y2) I3]. replace (find_z z zs (S i) - i)%nat with (S (find_z z zs (S i) - S i))%nat by lia. split; [exists y; split; [exact Y1|exact Y2]|].
        intros [|j] w L' W; [cbn in W; inversion W; subst; exact NX|]. apply (I3 j w); [lia|exact W].
      * intros L y [<-|Y]; [exact NX|]. apply I4; [lia|exact Y].
Qed.
Lemma first_unique zs z i j : first_index zs z i -> first_index zs z j -> i = j.
Proof.
  intros [(x & X1 & X2) X3] [(y & Y1 & Y2) Y3]. destruct (Nat.lt_trichotomy i j) as [L|[L|L]]; [exfalso; exact (Y3 _ _ L X1 X2)|exact L|exfalso; exact (X3 _ _ L Y1 Y2)].
Qed.
Lemma find_z_first zs z i : first_index zs z i -> find_z z zs 0 = i.
Proof.
  intro F. destruct (find_z_spec z zs 0) as (A & _ & B & C). destruct (Nat.eq_dec (find_z z zs 0) (0 + List.length zs)) as [E|N].
  - exfalso. destruct F as [(x & X1 & X2) _]. apply (C E x); [apply nth_error_In in X1; exact X1|exact X2].
  - specialize (B ltac:(lia)). rewrite Nat.sub_0_r in B. exact (first_unique _ _ _ _ B F).
Qed.
(** the best of the results already seen *)
Definition best_of (m : smap fitresult) (i : nat) (b : option (string * Q)) : Prop :=
  match b with
  | None => forall n r c, bound m n r -> ~ chi_at r i c
  | Some (n, c) => exists r, best_template m i n r c
  end.
Lemma chi_fun r i c c' : chi_at r i c -> chi_at r i c' -> c = c'.
Proof. intros (x & X & Y) (x' & X' & Y'). congruence. Qed.
Lemma min_chi_ok i : forall m2 m1 b b', ordered (m1 ++ m2)%list -> best_of m1 i b -> min_chi m2 i b = Ok b' -> best_of (m1 ++ m2)%list i b' /\ forall n r, bound m2 n r -> exists x, nth_error (fr_rows r) i = Some x.
Proof.
  induction m2 as [|[n r] m2 IH]; intros m1 b b' O B E; cbn [min_chi] in E.
  - inversion E; subst. rewrite app_nil_r. split; [exact B|intros ? ? []].
  - unfold vget in E. destruct (nth_error (fr_rows r) i) as [x|] eqn:X; [|discriminate]. cbn [rbind] in E.
    assert (LT : forall n' r', bound m1 n' r' -> String.ltb n' n = true).
    { intros n' r' B'. unfold ordered, keys in O. rewrite map_app in O. cbn [map fst] in O. clear -O B'. induction m1 as [|[a v] m1 IH]; [destruct B'|]. cbn [map fst app] in O. inversion O as [|? ? O1 O2]; subst.
      destruct B' as [B'|B']; [inversion B'; subst; rewrite Forall_forall in O2; apply O2; apply in_or_app; right; left; reflexivity|exact (IH O1 B')]. }
    replace (m1 ++ (n, r) :: m2)%list with ((m1 ++ [(n, r)]) ++ m2)%list in * by (rewrite <- app_assoc; reflexivity).
    assert (BI : forall n' r', bound (m1 ++ [(n, r)])%list n' r' -> bound m1 n' r' \/ (n' = n /\ r' = r)).
    { intros n' r' H. unfold bound in H. apply in_app_or in H. destruct H as [H|[H|[]]]; [left; exact H|inversion H; right; split; reflexivity]. }
    apply (IH (m1 ++ [(n, r)])%list) in E; [destruct E as [E1 E2]; split; [exact E1|]; intros k v [K|K]; [inversion K; subst; eauto|eauto]|exact O|].
    clear IH E. destruct (r_chi x) as [c|] eqn:RC.
    + assert (CA : chi_at r i c) by (exists x; auto). destruct b as [[nb cb]|].
      * destruct B as (rb & B1 & B2 & B3). destruct (Qltb_spec c cb) as [L|L].
        -- exists r. split; [unfold bound; apply in_or_app; right; left; reflexivity|]. split; [exact CA|]. intros n' r' c' K C'. destruct (BI _ _ K) as [K'|[-> ->]].
           ++ destruct (B3 _ _ _ K' C') as [B4 _]. split; [lra|intros _; lra].
           ++ rewrite (chi_fun _ _ _ _ C' CA). split; [lra|]. intro X'. rewrite ltb_irrefl in X'. discriminate.
        -- exists rb. split; [unfold bound in *; apply in_or_app; left; exact B1|]. split; [exact B2|]. intros n' r' c' K C'. destruct (BI _ _ K) as [K'|[-> ->]]; [exact (B3 _ _ _ K' C')|].
           rewrite (chi_fun _ _ _ _ C' CA). split; [lra|]. intro X'. pose proof (ltb_trans _ _ _ X' (LT _ _ B1)) as Y. rewrite ltb_irrefl in Y. discriminate.
      * cbn [best_of] in *. exists r. split; [unfold bound; apply in_or_app; right; left; reflexivity|]. split; [exact CA|]. intros n' r' c' K C'. destruct (BI _ _ K) as [K'|[-> ->]]; [exfalso; exact (B _ _ _ K' C')|].
        rewrite (chi_fun _ _ _ _ C' CA). split; [lra|]. intro X'. rewrite ltb_irrefl in X'. discriminate.
    + assert (NC : forall c, ~ chi_at r i c) by (intros c (x' & X' & Y'); congruence). destruct b as [[nb cb]|].
      * destruct B as (rb & B1 & B2 & B3). exists rb. split; [unfold bound in *; apply in_or_app; left; exact B1|]. split; [exact B2|]. intros n' r' c' K C'. destruct (BI _ _ K) as [K'|[-> ->]]; [exact (B3 _ _ _ K' C')|exfalso; exact (NC _ C')].
      * intros n' r' c' K C'. destruct (BI _ _ K) as [K'|[-> ->]]; [exact (B _ _ _ K' C')|exact (NC _ C')].
Qed.

Section Extrema.
  Variable model : nat -> bool -> string -> Q -> Q -> Z -> Q -> res (list Q).
  Lemma models_ok name z e g a : forall n k l, models model n k name z e g a = Ok l -> List.length l = n /\ forall i f, nth_error l i = Some f -> model (k + i)%nat false name z e g a = Ok f.
  Proof.
    induction n as [|n IH]; intros k l E; cbn [models] in E; [inversion E; split; [reflexivity|intros [|i] f H; discriminate]|].
    destruct (model k false name z e g a) as [f| |] eqn:M; try discriminate. cbn [rbind] in E. destruct (models model n (S k) name z e g a) as [l'| |] eqn:R; try discriminate. inversion E; subst. apply IH in R. destruct R as [R1 R2].
    split; [cbn [List.length]; congruence|]. intros [|i] f' H; [rewrite Nat.add_0_r; cbn in H; inversion H; subst; exact M|]. rewrite <- Nat.add_succ_comm. apply R2. exact H.
  Qed.
  Lemma extremum_ok m nspc zs c k f : ordered m -> extremum model m nspc zs c = Ok (k, f) -> (forall n r, bound m n r -> List.length (fr_rows r) = List.length zs) -> right_candidate m zs (fst c) (snd c) k /\ right_models model nspc k f.
  Proof.
    intros O E LEN. unfold extremum in E. destruct (min_chi m (find_z (snd c) zs 0) None) as [b| |] eqn:M; try discriminate. cbn [rbind] in E. destruct b as [[name chi]|]; [|discriminate].
    destruct (mget m name) as [r| |] eqn:G; try discriminate. cbn [rbind] in E. destruct (vget (fr_rows r) (find_z (snd c) zs 0)) as [x| |] eqn:X; try discriminate. cbn [rbind] in E.
    destruct (models model nspc 0 name (snd c) (r_ebmv x) (r_igm x) (r_amp x)) as [l| |] eqn:L; try discriminate. cbn [rbind] in E. inversion E; subst k f. clear E.
    apply (min_chi_ok _ m [] None) in M; [|exact O|intros ? ? ? []]. destruct M as [M _]. cbn [app best_of] in M. destruct M as (r' & B).
    assert (r' = r). { destruct B as (B1 & _). apply (mget_bound _ _ _ O) in B1. congruence. } subst r'.
    unfold vget in X. destruct (nth_error (fr_rows r) (find_z (snd c) zs 0)) as [x'|] eqn:X'; [|discriminate]. inversion X; subst x'. clear X.
    destruct (find_z_spec (snd c) zs 0) as (_ & _ & F & _). rewrite Nat.sub_0_r in F.
    assert (IN : (find_z (snd c) zs 0 < 0 + List.length zs)%nat). { rewrite Nat.add_0_l. rewrite <- (LEN name r (proj1 B)). apply nth_error_Some. congruence. }
    split.
    - exists (find_z (snd c) zs 0), r, x. split; [exact (F IN)|]. cbn [k_tpl k_merit k_id k_z k_phot k_igm k_ebmv k_amp k_err k_dtm k_mtm k_snr k_prior]. split; [exact B|]. split; [exact X'|]. do 10 (split; [reflexivity|]). reflexivity.
    - apply models_ok in L. exact L.
  Qed.
  Lemma extrema_ok m nspc zs : ordered m -> (forall n r, bound m n r -> List.length (fr_rows r) = List.length zs) -> forall cs es, extrema model m nspc zs cs = Ok es -> Forall2 (fun c e => right_candidate m zs (fst c) (snd c) (fst e) /\ right_models model nspc (fst e) (snd e)) cs es.
  Proof.
    intros O LEN. induction cs as [|c cs IH]; intros es E; cbn [extrema] in E; [inversion E; constructor|].
    destruct (extremum model m nspc zs c) as [[k f]| |] eqn:X; try discriminate. cbn [rbind] in E. destruct (extrema model m nspc zs cs) as [l| |]; try discriminate. inversion E; subst. constructor; [|auto]. cbn [fst snd]. exact (extremum_ok _ _ _ _ _ _ O X LEN).
  Qed.
  Lemma combine_eq : forall l zs i a b, forallb (fun p => Qeq_bool (fst p) (snd p)) (combine l zs) = true -> nth_error l i = Some a -> nth_error zs i = Some b -> a == b.
  Proof.
    induction l as [|x l IH]; intros [|y zs] [|i] a b H A B; cbn in *; try discriminate.
    - apply andb_prop in H. destruct H as [H _]. inversion A; inversion B; subst. apply Qeq_bool_iff. exact H.
    - apply andb_prop in H. destruct H as [_ H]. eauto.
  Qed.
  Lemma check_ok zs : forall m, check_results zs m = Ok tt -> same_redshifts m zs.
  Proof.
    unfold same_redshifts. induction m as [|[n r] m IH]; intro E; cbn [check_results] in E; [intros ? ? []|].
    destruct (Nat.eqb (List.length (fr_rows r)) (List.length zs)) eqn:A; [|discriminate]. cbn [negb] in E. destruct (Nat.ltb_spec (List.length zs) (List.length (fr_zs r))) as [L|L]; [discriminate|].
    destruct (forallb (fun p => Qeq_bool (fst p) (snd p)) (combine (fr_zs r) zs)) eqn:C; [|discriminate]. cbn [negb] in E.
    intros n' r' [B|B]; [inversion B; subst|exact (IH E _ _ B)]. split; [apply Nat.eqb_eq; exact A|]. split; [exact L|]. intros i a b H H'. exact (combine_eq _ _ _ _ _ C H H').
  Qed.
  Lemma build_ok m nspc cs es : ordered m -> buildExtremaResults model m nspc cs = Ok es -> exists n0 r0 m', m = (n0, r0) :: m' /\ same_redshifts m (fr_zs r0) /\ Forall2 (fun c e => right_candidate m (fr_zs r0) (fst c) (snd c) (fst e) /\ right_models model nspc (fst e) (snd e)) cs es.
  Proof.
    intros O E. destruct m as [|[n0 r0] m']; [discriminate|]. unfold buildExtremaResults in E. destruct (check_results (fr_zs r0) ((n0, r0) :: m')) as [u| |] eqn:C; try discriminate. destruct u. apply check_ok in C. cbn [rbind] in E.
    exists n0, r0, m'. split; [reflexivity|]. split; [exact C|]. apply extrema_ok; [exact O|intros n r B; exact (proj1 (C n r B))|exact E].
  Qed.
End Extrema.
