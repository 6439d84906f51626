(** Proofs for C78: the operations on the table. *)
From Verif Require Import Base RangeModel RangeSpec RangeProofs ZGridModel ZGridSpec ZGridProofs MeikModel LmrModel LmrSpec LmrProofs.
Open Scope Q_scope.

Lemma init_spec z nT nR priors : length priors = nR ->
  exists r, Init empty_res z nT nR priors = Ok r /\ r_z r = z /\ r_prior r = priors /\ table r nT nR (repeat (no_row nT nR) (length z)).
Proof.
  intro Hp. unfold Init. rewrite Hp, Nat.eqb_refl. cbn [negb].
  assert (MM : forall (A : Type) (f : row -> list A) (d : A) n, f (no_row nT nR) = repeat d n ->
    matrix (repeat (repeat d (length z)) n) n f (repeat (no_row nT nR) (length z))).
  { intros A f d n Hf. split; [apply repeat_length|]. split.
    - intros w Hw. apply repeat_spec in Hw. subst w. rewrite Hf. apply repeat_length.
    - intros j col Hj. pose proof (nth_error_len _ _ _ Hj) as Lj. rewrite repeat_length in Lj.
      apply nth_error_In, repeat_spec in Hj. subst col. rewrite !map_rep. f_equal. rewrite Hf.
      destruct (nth_error_lt (repeat d n) j) as [x Hx]; [rewrite repeat_length; exact Lj|]. rewrite Hx. f_equal.
      symmetry. eapply repeat_spec. eapply nth_error_In; eauto. }
  assert (M0 : forall (A : Type) (f : row -> list A), nR = 0%nat -> f (no_row nT nR) = [] ->
    matrix [] nR f (repeat (no_row nT nR) (length z))).
  { intros A f -> Hf. split; [reflexivity|]. split; [|intros [|j] col K; discriminate].
    intros w Hw. apply repeat_spec in Hw. subst w. rewrite Hf. reflexivity. }
  destruct (Nat.ltb_spec 0 nR) as [K|K].
  - eexists. split; [reflexivity|]. split; [reflexivity|]. split; [reflexivity|]. unfold table.
    cbn [r_chi2 r_marg r_sol r_csol r_cchi2 r_cmarg r_cont r_rchi2 r_rmarg r_strong r_ha r_nl r_pl].
    rewrite !map_rep. cbn [no_row w_chi2 w_marg w_sol w_csol w_cchi2 w_cmarg].
    repeat (split; [first [reflexivity | apply MM; reflexivity]|]). apply MM; reflexivity.
  - assert (E : nR = 0%nat) by lia. eexists. split; [reflexivity|]. split; [reflexivity|]. split; [destruct priors; [reflexivity|simpl in Hp; lia]|]. unfold table.
    cbn [r_chi2 r_marg r_sol r_csol r_cchi2 r_cmarg r_cont r_rchi2 r_rmarg r_strong r_ha r_nl r_pl empty_res].
    rewrite !map_rep. cbn [no_row w_chi2 w_marg w_sol w_csol w_cchi2 w_cmarg].
    repeat (split; [first [reflexivity | apply MM; reflexivity | apply M0; [exact E|cbn; rewrite E; reflexivity]]|]).
    apply M0; [exact E|cbn; rewrite E; reflexivity].
Qed.

Lemma updateVectors_spec r nT nR rows idx ndup count : table r nT nR rows -> (ndup <= count)%nat ->
  (idx + ndup <= length rows)%nat ->
  exists r', updateVectors r idx ndup count = Ok r' /\ r_z r' = r_z r /\ r_prior r' = r_prior r /\
    table r' nT nR (spl rows idx ndup count (no_row nT nR)).
Proof.
  intros (T1 & T2 & T3 & T4 & T5 & T6 & T7 & T8 & T9 & T10 & T11 & T12 & T13) H1 H2. unfold updateVectors.
  rewrite T1, T2, T3, T4, T5, T6.
  assert (L7 : length (r_cont r) = nT) by apply T7. assert (L8 : length (r_rchi2 r) = nR) by apply T8.
  rewrite L7, L8.
  destruct (matrix_insert _ _ _ _ idx ndup count (Some dbl_max) (no_row nT nR) T7 H1 H2 eq_refl) as [E7 M7].
  destruct (matrix_insert _ _ _ _ idx ndup count (Some dbl_max) (no_row nT nR) T8 H1 H2 eq_refl) as [E8 M8].
  destruct (matrix_insert _ _ _ _ idx ndup count (Some 0) (no_row nT nR) T9 H1 H2 eq_refl) as [E9 M9].
  destruct (matrix_insert _ _ _ _ idx ndup count false (no_row nT nR) T10 H1 H2 eq_refl) as [E10 M10].
  destruct (matrix_insert _ _ _ _ idx ndup count false (no_row nT nR) T11 H1 H2 eq_refl) as [E11 M11].
  destruct (matrix_insert _ _ _ _ idx ndup count 0%Z (no_row nT nR) T12 H1 H2 eq_refl) as [E12 M12].
  destruct (matrix_insert _ _ _ _ idx ndup count (Some 0) (no_row nT nR) T13 H1 H2 eq_refl) as [E13 M13].
  do 6 (rewrite insertWithDuplicates_value_eq; [|exact H1|rewrite map_length; exact H2]; cbn [rbind]).
  rewrite E7. cbn [rbind]. rewrite E8. cbn [rbind]. rewrite E9. cbn [rbind]. rewrite E10. cbn [rbind]. rewrite E11. cbn [rbind].
  rewrite E12. cbn [rbind]. rewrite E13. cbn [rbind].
  eexists. split; [reflexivity|]. split; [reflexivity|]. split; [reflexivity|]. unfold table.
  cbn [r_chi2 r_marg r_sol r_csol r_cchi2 r_cmarg r_cont r_rchi2 r_rmarg r_strong r_ha r_nl r_pl].
  rewrite !map_spl. repeat (split; [first [reflexivity | assumption]|]). assumption.
Qed.

Lemma nth_nil_len {A} (l : list A) : length l = 0%nat -> l = [].
Proof. destruct l; [reflexivity|discriminate]. Qed.

Lemma store_spec r nT nR rows i o w : table r nT nR rows -> length (r_z r) = length rows -> nth_error rows i = Some w ->
  shaped nT nR o ->
  exists r' w', store r i o = Ok r' /\ r_z r' = r_z r /\ r_prior r' = r_prior r /\ from_call o (w_cont w) w' /\
    table r' nT nR (upd rows i w').
Proof.
  intros (T1 & T2 & T3 & T4 & T5 & T6 & T7 & T8 & T9 & T10 & T11 & T12 & T13) Lz Hw (Sc & Sr).
  assert (Hi : (i < length rows)%nat) by (eapply nth_error_len; eauto).
  assert (Hin : In w rows) by (eapply nth_error_In; eauto).
  set (cont' := match o_cont o with Some m => m | None => w_cont w end).
  set (w' := match o_ratio o with
    | Some q => mkRow (o_chi2 o) (o_marg o) (o_sol o) (o_csol o) (o_cchi2 o) (o_cmarg o) cont' (q_chi2 q) (q_marg q) (q_strong q) (q_ha q) (q_nl q) (q_pl q)
    | None => mkRow (o_chi2 o) (o_marg o) (o_sol o) (o_csol o) (o_cchi2 o) (o_cmarg o) cont' (w_rchi2 w) (w_rmarg w) (w_strong w) (w_ha w) (w_nl w) (w_pl w) end).
  unfold store. rewrite T1, T2, T3, T4.
  do 4 (rewrite vset_eq by (rewrite map_length; exact Hi); cbn [rbind]).
  set (r1 := mkLmres _ _ _ _ _ _ _ _ _ _ _ _ _ _ _).
  assert (C : exists cont1, (match o_cont o with None => Ok r1 | Some m => SetChisquareTplContinuumResult r1 i m end) =
     Ok (mkLmres (r_z r1) (r_chi2 r1) (r_marg r1) (r_sol r1) (r_csol r1) (r_cchi2 r1) (r_cmarg r1) cont1
        (r_rchi2 r1) (r_rmarg r1) (r_strong r1) (r_ha r1) (r_nl r1) (r_prior r1) (r_pl r1)) /\ matrix cont1 nT w_cont (upd rows i w')).
  { destruct (o_cont o) as [m|] eqn:Oc.
    - destruct (matrix_set (r_cont r1) nT w_cont rows i w' m T7 Hi (Sc m eq_refl)) as (c1 & E1 & M1).
      { unfold w', cont'. destruct (o_ratio o); reflexivity. }
      exists c1. split; [|exact M1]. unfold SetChisquareTplContinuumResult. rewrite E1. reflexivity.
    - exists (r_cont r1). split; [destruct r1; reflexivity|]. apply (matrix_same _ _ _ _ _ _ w); [exact T7|exact Hw|].
      unfold w', cont'. destruct (o_ratio o); reflexivity. }
  destruct C as (cont1 & E2 & M2). rewrite E2. cbn [rbind]. clear E2.
  set (r2 := mkLmres _ _ _ _ _ _ _ _ _ _ _ _ _ _ _).
  assert (D : exists a b c d e f, (match o_ratio o with None => Ok r2 | Some q => SetChisquareTplratioResult r2 i q end) =
     Ok (mkLmres (r_z r2) (r_chi2 r2) (r_marg r2) (r_sol r2) (r_csol r2) (r_cchi2 r2) (r_cmarg r2) (r_cont r2)
        a b c d e (r_prior r2) f) /\ matrix a nR w_rchi2 (upd rows i w') /\ matrix b nR w_rmarg (upd rows i w') /\
        matrix c nR w_strong (upd rows i w') /\ matrix d nR w_ha (upd rows i w') /\ matrix e nR w_nl (upd rows i w') /\
        matrix f nR w_pl (upd rows i w')).
  { destruct (o_ratio o) as [q|] eqn:Or.
    - destruct Sr as (S0 & S1 & S2 & S3 & S4 & S5 & S6).
      destruct (matrix_set (r_rchi2 r2) nR w_rchi2 rows i w' _ T8 Hi S1 eq_refl) as (a & Ea & Ma).
      destruct (matrix_set (r_rmarg r2) nR w_rmarg rows i w' _ T9 Hi S2 eq_refl) as (b & Eb & Mb).
      destruct (matrix_set (r_strong r2) nR w_strong rows i w' _ T10 Hi S3 eq_refl) as (c & Ec & Mc).
      destruct (matrix_set (r_ha r2) nR w_ha rows i w' _ T11 Hi S4 eq_refl) as (d & Ed & Md).
      destruct (matrix_set (r_nl r2) nR w_nl rows i w' _ T12 Hi S5 eq_refl) as (e & Ee & Me).
      destruct (matrix_set (r_pl r2) nR w_pl rows i w' _ T13 Hi S6 eq_refl) as (f & Ef & Mf).
      exists a, b, c, d, e, f. split; [|auto 10]. unfold SetChisquareTplratioResult. rewrite S1.
      destruct (Nat.ltb_spec nR 1) as [K|_]; [lia|].
      change (r_z r2) with (r_z r). destruct (Nat.leb_spec (length (r_z r)) i) as [K|_]; [lia|].
      assert (L8 : length (r_rchi2 r2) = nR) by apply T8. rewrite L8, S2, S3, S5, S6, !Nat.eqb_refl. cbn [andb negb].
      rewrite S4. destruct (Nat.ltb_spec nR nR) as [K|_]; [lia|].
      rewrite Ea. cbn [rbind]. rewrite Eb. cbn [rbind]. rewrite Ec. cbn [rbind].
      rewrite <- S4 at 1. rewrite firstn_all. rewrite Ed. cbn [rbind]. rewrite Ee. cbn [rbind]. rewrite Ef. reflexivity.
    - exists (r_rchi2 r2), (r_rmarg r2), (r_strong r2), (r_ha r2), (r_nl r2), (r_pl r2).
      split; [destruct r2; reflexivity|]. repeat split; try (eapply matrix_same; [eassumption|exact Hw|reflexivity]); apply (matrix_same _ _ _ _ _ _ w); assumption || reflexivity. }
  destruct D as (a & b & c & d & e & f & E3 & Ma & Mb & Mc & Md & Me & Mf). rewrite E3. cbn [rbind]. clear E3.
  cbn [r_cchi2 r_cmarg]. change (r_cchi2 r2) with (r_cchi2 r). change (r_cmarg r2) with (r_cmarg r).
  rewrite T5, T6. do 2 (rewrite vset_eq by (rewrite map_length; exact Hi); cbn [rbind]).
  eexists. exists w'. split; [reflexivity|]. split; [reflexivity|]. split; [reflexivity|]. split.
  - unfold from_call, w', cont'. destruct (o_ratio o) as [q|] eqn:Or.
    + cbn. repeat split; reflexivity.
    + assert (Z : forall (A : Type) (cols : list (list A)) g, matrix cols nR g rows -> g w = []).
      { intros A cols g (_ & Lw & _). apply nth_nil_len. rewrite (Lw w Hin). exact Sr. }
      cbn. repeat (split; [reflexivity|]). repeat split; eapply Z; eassumption.
  - unfold table. cbn [r_chi2 r_marg r_sol r_csol r_cchi2 r_cmarg r_cont r_rchi2 r_rmarg r_strong r_ha r_nl r_pl r1 r2].
    rewrite !map_upd.
    repeat (split; [first [assumption | unfold w'; destruct (o_ratio o); reflexivity]|]). assumption.
Qed.

Section Fit.
Variables (fitf : nat -> Q -> out) (nT nR : nat).
Hypothesis HS : forall c x, shaped nT nR (fitf c x).

(** the first pass fills every row from the call made at its redshift *)
Lemma first_loop_spec : forall n i r rows, table r nT nR rows -> length (r_z r) = length rows -> (i + n = length rows)%nat ->
  (forall k w, (i <= k)%nat -> nth_error rows k = Some w -> w = no_row nT nR) ->
  (forall k x w, (k < i)%nat -> nth_error (r_z r) k = Some x -> nth_error rows k = Some w -> from_call (fitf k x) (repeat (Some dbl_max) nT) w) ->
  exists r' rows', first_loop fitf n i r = Ok r' /\ r_z r' = r_z r /\ r_prior r' = r_prior r /\ table r' nT nR rows' /\ length rows' = length rows /\
    forall k x w, nth_error (r_z r) k = Some x -> nth_error rows' k = Some w -> from_call (fitf k x) (repeat (Some dbl_max) nT) w.
Proof.
  induction n as [|n IH]; intros i r rows T L Hn Hd Hf.
  - exists r, rows. cbn [first_loop]. repeat (split; [solve [auto]|]). intros k x w Hx Hw. apply Hf; auto.
    apply nth_error_len in Hw. lia.
  - cbn [first_loop]. destruct (nth_error_lt (r_z r) i ltac:(lia)) as [x Hx]. rewrite (proj2 (vget_Ok _ _ _) Hx). cbn [rbind].
    destruct (nth_error_lt rows i ltac:(lia)) as [w Hw].
    destruct (store_spec r nT nR rows i (fitf i x) w T L Hw (HS i x)) as (r1 & w' & E & Z1 & P1 & F1 & T1). rewrite E. cbn [rbind].
    assert (Li : (i < length rows)%nat) by lia.
    rewrite (Hd i w (Nat.le_refl _) Hw) in F1.
    destruct (IH (S i) r1 (upd rows i w')) as (r' & rows' & E' & Z' & P' & T' & L' & F').
    + exact T1.
    + rewrite Z1, upd_length by exact Li. exact L.
    + rewrite upd_length by exact Li. lia.
    + intros k v Hk Hv. rewrite upd_nth in Hv by exact Li. destruct (Nat.eqb_spec k i) as [K|K]; [lia|]. apply (Hd k v); auto. lia.
    + intros k y v Hk Hy Hv. rewrite Z1 in Hy. rewrite upd_nth in Hv by exact Li. destruct (Nat.eqb_spec k i) as [K|K].
      * subst k. injection Hv as <-. rewrite Hx in Hy. injection Hy as <-. exact F1.
      * apply Hf; auto. lia.
    + exists r', rows'. split; [exact E'|]. split; [congruence|]. split; [congruence|]. split; [exact T'|].
      split; [rewrite L', upd_length; auto|]. rewrite <- Z1. exact F'.
Qed.

Lemma inserted_replaced sub z sub' x : insertable sub z -> inserted sub z sub' -> In x sub' -> replaced sub x.
Proof.
  intros (Ss & Sz & L2 & (y & Hy & (a & b & Ha & Hb & La & Lb)) & _ & _ & _) (Ls & Hins) Hx.
  apply In_nth_error in Hx. destruct Hx as [k Hk]. destruct (Hins k x Hk) as (x0 & H0 & H).
  assert (A0 : a <= x0).
  { destruct (Nat.eq_dec k 0) as [E|E]; [subst k; rewrite Ha in H0; injection H0 as <-; lra|]. apply Qlt_le_weak. apply (Ss 0%nat k); auto. lia. }
  assert (B0 : x0 <= b).
  { destruct (Nat.eq_dec k (length sub - 1)) as [E|E]; [subst k; rewrite Hb in H0; injection H0 as <-; lra|].
    apply Qlt_le_weak. apply (Ss k (length sub - 1)%nat); auto. apply nth_error_len in H0. lia. }
  exists a, b. split; [exact Ha|]. split; [exact Hb|].
  assert (Eps : 0 < eps) by reflexivity.
  apply In_nth_error in Hy. destruct Hy as [m Hm].
  destruct H as [(-> & _)|[(-> & Hz & Lx)|(-> & Hz & Lx)]].
  - lra.
  - rewrite Ha in H0. injection H0 as <-. split; [exact Lx|].
    assert (x <= y).
    { destruct (Nat.eq_dec m 0) as [E|E]; [subst m; rewrite Hz in Hm; injection Hm as <-; lra|]. apply Qlt_le_weak. apply (Sz 0%nat m); auto. lia. }
    lra.
  - rewrite Hb in H0. injection H0 as <-. split; [|exact Lx].
    assert (y <= x).
    { destruct (Nat.eq_dec m (length z - 1)) as [E|E]; [subst m; rewrite Hz in Hm; injection Hm as <-; lra|].
      apply Qlt_le_weak. apply (Sz m (length z - 1)%nat); auto. apply nth_error_len in Hm. lia. }
    lra.
Qed.

Lemma spl_combine sub' z z' imin ndup (rows : list row) d sub : length rows = length z ->
  (forall k x, nth_error z k = Some x -> (replaced sub x <-> (imin <= k < imin + ndup)%nat)) ->
  (imin + ndup <= length z)%nat -> z' = firstn imin z ++ sub' ++ skipn (imin + ndup) z ->
  forall x v, In (x, v) (combine z' (spl rows imin ndup (length sub') d)) <->
    (In x sub' /\ v = d) \/ (In (x, v) (combine z rows) /\ ~ replaced sub x).
Proof.
  intros HL Hzone H3 Hz' x v. unfold spl.
  assert (Lc : length (firstn imin z) = length (firstn imin rows)) by (rewrite !firstn_length; lia).
  rewrite Hz', combine_app by exact Lc. rewrite combine_app by (rewrite repeat_length; reflexivity).
  rewrite !in_app_iff, combine_repeat. rewrite !in_combine_nth. split.
  - intros [(k & K1 & K2)|[H|(k & K1 & K2)]].
    + apply nth_firstn in K1, K2. destruct K1 as [K0 K1]. right. split; [exists k; tauto|]. intro X. apply (Hzone k x K1) in X. lia.
    + left. exact H.
    + rewrite nth_skip in K1. rewrite nth_skip in K2. right. split; [exists (imin + ndup + k)%nat; auto|]. intro X. apply (Hzone _ x K1) in X. lia.
  - intros [H|[(k & K1 & K2) Hn]]; [right; left; exact H|].
    destruct (Nat.lt_ge_cases k imin) as [I'|I'].
    + left. exists k. rewrite !nth_firstn. auto.
    + destruct (Nat.lt_ge_cases k (imin + ndup)) as [J|J]; [exfalso; apply Hn; apply (Hzone k x K1); lia|].
      right; right. exists (k - (imin + ndup))%nat. rewrite !nth_skip. replace (imin + ndup + (k - (imin + ndup)))%nat with k by lia. auto.
Qed.

Lemma apart_tail s t : apart (s :: t) -> apart t.
Proof. intros H i j a b x L Ha Hb. apply (H (S i) (S j) a b x); auto. lia. Qed.
Lemma apart_head s t u x : apart (s :: t) -> In u t -> replaced s x -> ~ replaced u x.
Proof. intros H Hu Hr. apply In_nth_error in Hu. destruct Hu as [j Hj]. apply (H 0%nat (S j) s u x); auto. lia. Qed.

Lemma ends_kept s grid s' g1 imin ndup : insertable s grid -> inserted s grid s' ->
  (forall k x, nth_error grid k = Some x -> (replaced s x <-> (imin <= k < imin + ndup)%nat)) ->
  (1 <= ndup)%nat -> (ndup <= length s)%nat -> (imin + ndup <= length grid)%nat ->
  g1 = firstn imin grid ++ s' ++ skipn (imin + ndup) grid ->
  nth_error g1 0 = nth_error grid 0 /\ nth_error g1 (length g1 - 1) = nth_error grid (length grid - 1).
Proof.
  intros (Ss & Sz & L2 & _) (Ls & Hins) Hzone N1 N2 N3 ->.
  assert (Eps : 0 < eps) by reflexivity.
  destruct (nth_error_lt grid 0 ltac:(lia)) as [zf Hzf]. destruct (nth_error_lt grid (length grid - 1) ltac:(lia)) as [zb Hzb].
  assert (Lfb : zf < zb) by (apply (Sz 0%nat (length grid - 1)%nat); auto; lia).
  split.
  - destruct (Nat.eq_dec imin 0) as [->|Hm].
    + cbn [firstn app]. destruct (nth_error_lt s' 0 ltac:(lia)) as [x' Hx'].
      rewrite nth_error_app1 by lia. rewrite Hx', Hzf. f_equal.
      destruct (Hins 0%nat x' Hx') as (x & Hx & H).
      assert (R : replaced s zf) by (apply (Hzone 0%nat zf Hzf); lia).
      destruct R as (a & b & Ha & Hb & La & Lb). rewrite Hx in Ha. injection Ha as <-.
      destruct H as [(_ & K & _)|[(_ & Hz & _)|(K0 & Hz & Lx)]].
      * specialize (K eq_refl zf Hzf). lra.
      * congruence.
      * exfalso. assert (R2 : replaced s zb).
        { exists x, b. split; [exact Hx|]. split; [exact Hb|]. rewrite <- K0, Hx in Hb. injection Hb as <-.
          rewrite Hzb in Hz. injection Hz as <-. split; lra. }
        apply (Hzone _ zb Hzb) in R2. lia.
    + rewrite nth_error_app1 by (rewrite firstn_length; lia).
      destruct (nth_firstn grid imin 0%nat zf) as [_ G]. rewrite G by (split; [lia|exact Hzf]). symmetry; exact Hzf.
  - rewrite !app_length, firstn_length, skipn_length.
    destruct (Nat.eq_dec (imin + ndup) (length grid)) as [Em|Hm].
    + rewrite nth_error_app2 by (rewrite firstn_length; lia). rewrite firstn_length.
      rewrite nth_error_app1 by lia.
      replace (Nat.min imin (length grid) + (length s' + (length grid - (imin + ndup))) - 1 - Nat.min imin (length grid))%nat with (length s - 1)%nat by lia.
      destruct (nth_error_lt s' (length s - 1) ltac:(lia)) as [x' Hx'].
      rewrite Hx', Hzb. f_equal.
      destruct (Hins _ x' Hx') as (x & Hx & H).
      assert (R : replaced s zb) by (apply (Hzone _ zb Hzb); lia).
      destruct R as (a & b & Ha & Hb & La & Lb). rewrite Hx in Hb. injection Hb as <-.
      destruct H as [(_ & _ & K)|[(K0 & Hz & Lx)|(_ & Hz & _)]].
      * specialize (K eq_refl zb Hzb). lra.
      * exfalso. assert (R2 : replaced s zf).
        { exists a, x. split; [exact Ha|]. split; [exact Hx|]. rewrite K0 in Hx. rewrite Ha in Hx. injection Hx as <-.
          rewrite Hzf in Hz. injection Hz as <-. split; lra. }
        apply (Hzone _ zf Hzf) in R2. lia.
      * congruence.
    + rewrite nth_error_app2 by (rewrite firstn_length; lia). rewrite firstn_length.
      rewrite nth_error_app2 by lia. rewrite nth_skip. f_equal. lia.
Qed.

(** the refinement of the grid *)
Lemma update_grid_spec : forall subs grid r rows, table r nT nR rows -> length rows = length grid -> strictly_increasing grid ->
  insertable_all subs grid -> apart subs ->
  exists subs' grid' r' rows', update_grid subs grid r = Ok (subs', grid', r') /\ insert_all subs grid = Ok grid' /\
    r_prior r' = r_prior r /\ table r' nT nR rows' /\ length rows' = length grid' /\ strictly_increasing grid' /\
    length subs' = length subs /\
    (forall i s', nth_error subs' i = Some s' -> strictly_increasing s' /\ s' <> [] /\
       exists s, nth_error subs i = Some s /\ (forall x, In x s' -> replaced s x /\ In x grid') /\
         (forall k x, nth_error s k = Some x -> exists x', nth_error s' k = Some x' /\
            (x' = x \/ (exists zf, nth_error grid 0 = Some zf /\ k = 0%nat /\ x - eps <= zf /\ x' = zf) \/
             (exists zb, nth_error grid (length grid - 1) = Some zb /\ k = (length s - 1)%nat /\ zb <= x + eps /\ x' = zb)))) /\
    (forall x w, In (x, w) (combine grid' rows') <->
       (w = no_row nT nR /\ exists s', In s' subs' /\ In x s') \/
       (In (x, w) (combine grid rows) /\ forall s, In s subs -> ~ replaced s x)) /\
    nth_error grid' 0 = nth_error grid 0 /\ nth_error grid' (length grid' - 1) = nth_error grid (length grid - 1).
Proof.
  induction subs as [|s t IH]; intros grid r rows T L Sg Ia Ap.
  - exists [], grid, r, rows. cbn [update_grid insert_all]. repeat (split; [solve [auto]|]).
    split; [intros [|i] s' K; discriminate|]. split; [|auto]. intros x w. split.
    + intro H. right. split; [exact H|]. intros s [].
    + intros [(_ & s' & [] & _)|[H _]]; exact H.
  - destruct Ia as [Hi Hr].
    destruct (insertSubgrid_spec s grid Hi) as (imin & ndup & s' & g1 & HE & Hins & Hsi & Hzone & N1 & N2 & N3 & Hg1 & Sg1 & _).
    pose proof (proj1 Hins) as Ls.
    cbn [update_grid insert_all]. rewrite HE. cbn [rbind].
    destruct (updateVectors_spec r nT nR rows imin ndup (length s') T) as (r1 & E1 & _ & P1 & T1); [lia|lia|].
    rewrite E1. cbn [rbind].
    assert (L1 : length (spl rows imin ndup (length s') (no_row nT nR)) = length g1).
    { rewrite spl_length by lia. rewrite Hg1, !app_length, firstn_length, skipn_length. lia. }
    destruct (IH g1 r1 _ T1 L1 Sg1 (Hr _ _ _ _ HE) (apart_tail _ _ Ap)) as
      (t' & g2 & r2 & rows2 & E2 & I2 & P2 & T2 & L2 & Sg2 & Lt & Ht & Hc & F0 & F1).
    rewrite E2. cbn [rbind]. exists (s' :: t'), g2, r2, rows2.
    pose proof (spl_combine s' grid g1 imin ndup rows (no_row nT nR) s L Hzone N3 Hg1) as SC.
    assert (Hs'ne : s' <> []) by (intro K; subst s'; simpl in Ls; lia).
    destruct (ends_kept s grid s' g1 imin ndup Hi Hins Hzone N1 N2 N3 Hg1) as [Hfirst Hlast].
    split; [reflexivity|]. split; [exact I2|]. split; [congruence|]. split; [exact T2|]. split; [exact L2|]. split; [exact Sg2|].
    split; [simpl; lia|]. split; [|split; [|split; congruence]].
    + intros [|i] s1 Hs1.
      * simpl in Hs1. injection Hs1 as <-. split; [exact Hsi|]. split; [exact Hs'ne|]. exists s. split; [reflexivity|]. split.
        -- intros x Hx. pose proof (inserted_replaced s grid s' x Hi Hins Hx) as Rx. split; [exact Rx|].
           assert (K : In (x, no_row nT nR) (combine g2 rows2)).
           { apply Hc. right. split; [apply SC; left; auto|]. intros u Hu. eapply apart_head; eauto. }
           eapply in_combine_l; eauto.
        -- intros k x Hx. destruct (nth_error_lt s' k) as [x' Hx']; [rewrite Ls; eapply nth_error_len; eauto|]. exists x'. split; [exact Hx'|].
           destruct (proj2 Hins k x' Hx') as (x0 & H0 & H). rewrite Hx in H0. injection H0 as <-.
           destruct H as [(-> & _)|[(-> & Hz & Lx)|(-> & Hz & Lx)]]; [auto|right; left; exists x'; auto|right; right; exists x'; auto].
      * destruct (Ht i s1 Hs1) as (A1 & A2 & s0 & B1 & B2 & B3). split; [exact A1|]. split; [exact A2|]. exists s0. split; [exact B1|].
        split; [exact B2|]. rewrite <- Hfirst, <- Hlast. exact B3.
    + intros x w. rewrite Hc. split.
      * intros [(-> & u & Hu & Hx)|[Hin Hn]].
        -- left. split; [reflexivity|]. exists u. split; [right; exact Hu|exact Hx].
        -- apply SC in Hin. destruct Hin as [(Hx & ->)|[Hin Hns]].
           ++ left. split; [reflexivity|]. exists s'. split; [left; reflexivity|exact Hx].
           ++ right. split; [exact Hin|]. intros u [<-|Hu]; [exact Hns|apply Hn; exact Hu].
      * intros [(-> & u & [<-|Hu] & Hx)|[Hin Hn]].
        -- right. split; [apply SC; left; auto|]. intros v Hv. eapply apart_head; eauto. eapply inserted_replaced; eauto.
        -- left. split; [reflexivity|]. exists u. auto.
        -- right. split; [apply SC; right; split; [exact Hin|apply Hn; left; reflexivity]|]. intros u Hu. apply Hn. right; exact Hu.
Qed.
End Fit.
