(** Proofs for C79: counts, flags, extreme merits. *)
From Coq Require Import String.
From Verif Require Import Base RBase RangeModel RangeProofs MeikModel MeikProofs PdfModel LmrModel LmrSpec LmrProofs LmrProofs3 ChiArrModel ChiArrSpec.
Open Scope Q_scope.

Section Rest.
Variable rest : nat -> option rline.

Lemma ge_ratio_spec a b t : ge_ratio a b t = true <-> ratio_at_least a b t.
Proof.
  unfold ge_ratio, ratio_at_least. destruct a as [x|]; [|split; [discriminate|intros (x & y & A & _); discriminate A]].
  destruct b as [y|]; [|split; [discriminate|intros (x' & y & _ & B & _); discriminate B]].
  destruct (Qeq_bool y 0) eqn:E.
  - apply Qeq_bool_iff in E. destruct (Qltb_spec 0 x) as [L|L].
    + split; [|auto]. intros _. exists x, y. auto.
    + split; [discriminate|]. intros (x' & y' & A & B & [[N _]|[_ P]]); injection A as <-; injection B as <-; contradiction.
  - assert (N : ~ y == 0) by (intro K; apply Qeq_bool_iff in K; congruence). rewrite Qle_bool_iff. split.
    + intro H. exists x, y. auto.
    + intros (x' & y' & A & B & [[_ H]|[K _]]); injection A as <-; injection B as <-; [exact H|contradiction].
Qed.

Definition above_b (snr fit : Q) (a : lsol) : bool :=
  match rest (l_id a) with
  | None => false
  | Some k => (k_strong k && k_em k && negb (no_noise (l_noise a)) && ge_ratio (l_amp a) (l_noise a) snr && ge_ratio (l_amp a) (l_rms a) fit)%bool
  end.
Lemma above_b_spec snr fit a : above_b snr fit a = true <-> above_cut rest snr fit a.
Proof.
  unfold above_b, above_cut. destruct (rest (l_id a)) as [k|]; [|split; [discriminate|intros (k & K & _); discriminate K]].
  rewrite !Bool.andb_true_iff, !ge_ratio_spec, Bool.negb_true_iff. split.
  - intros ((((A & B) & C) & D) & E). exists k. repeat (split; [assumption || reflexivity|]). split; [|auto].
    destruct D as (x & y & _ & Y & _). exists y. split; [exact Y|]. unfold no_noise in C. rewrite Y in C.
    destruct (Qle_bool_spec y 0) as [L|L]; [discriminate|]. apply Qnot_le_lt. exact L.
  - intros (k' & K & A & B & (n & N & P) & D & E). injection K as <-. repeat split; try assumption.
    unfold no_noise. rewrite N. destruct (Qle_bool_spec n 0) as [L|L]; [|reflexivity]. exfalso. apply (Qlt_not_le _ _ P). exact L.
Qed.

Lemma nlines_loop_spec snr fit l : forall seen n, known rest l -> NoDup seen ->
  exists ids, nlines_loop rest snr fit l seen n = Ok (n + length ids - length seen)%nat /\ NoDup ids /\ (length seen <= length ids)%nat /\
    forall e, In e ids <-> In e seen \/ exists a, In a l /\ l_elt a = e /\ above_cut rest snr fit a.
Proof.
  induction l as [|a t IH]; intros seen n Kn ND; cbn [nlines_loop].
  - exists seen. split; [f_equal; lia|]. split; [exact ND|]. split; [lia|]. intro e. split; [auto|]. intros [H|(a & [] & _)]. exact H.
  - assert (Kt : known rest t) by (intros b Hb; apply Kn; right; exact Hb).
    assert (Skip : forall P : Prop, (above_cut rest snr fit a -> In (l_elt a) seen) ->
      exists ids, nlines_loop rest snr fit t seen n = Ok (n + length ids - length seen)%nat /\ NoDup ids /\ (length seen <= length ids)%nat /\
        forall e, In e ids <-> In e seen \/ exists b, In b (a :: t) /\ l_elt b = e /\ above_cut rest snr fit b).
    { intros _ NA. destruct (IH seen n Kt ND) as (ids & E & N & L & H). exists ids. repeat (split; [assumption|]). intro e. rewrite H. split.
      - intros [K|(b & B & C)]; [auto|]. right. exists b. split; [right; exact B|exact C].
      - intros [K|(b & [B|B] & C & D)]; [auto| |right; exists b; auto]. subst b. left. rewrite <- C. apply NA, D. }
    destruct (existsb (Z.eqb (l_elt a)) seen) eqn:Ex.
    { apply (Skip True). intros _. apply existsb_exists in Ex. destruct Ex as (y & Y & Ey). apply Z.eqb_eq in Ey. rewrite Ey. exact Y. }
    unfold rest_at. destruct (rest (l_id a)) as [k|] eqn:R; [|exfalso; apply (Kn a (or_introl eq_refl) R)]. cbn [rbind].
    pose proof (above_b_spec snr fit a) as AB. unfold above_b in AB. rewrite R in AB.
    destruct (k_strong k), (k_em k); cbn [negb orb andb] in *; try (apply (Skip True); intro K; apply AB in K; discriminate).
    destruct (no_noise (l_noise a)); cbn [negb orb andb] in *; try (apply (Skip True); intro K; apply AB in K; discriminate).
    destruct (ge_ratio (l_amp a) (l_noise a) snr && ge_ratio (l_amp a) (l_rms a) fit)%bool; try (apply (Skip True); intro K; apply AB in K; discriminate).
    assert (Ns : ~ In (l_elt a) seen).
    { intro K. assert (existsb (Z.eqb (l_elt a)) seen = true) by (apply existsb_exists; exists (l_elt a); split; [exact K|apply Z.eqb_refl]). congruence. }
    destruct (IH (seen ++ [l_elt a])%list (S n) Kt) as (ids & E & N & L & H).
    { clear - ND Ns. apply NoDup_rev in ND. rewrite <- (rev_involutive (seen ++ _)). apply NoDup_rev. rewrite rev_app_distr. simpl.
      constructor; [rewrite <- in_rev; exact Ns|exact ND]. }
    rewrite app_length in E, L. cbn [length] in E, L. exists ids. split; [rewrite E; f_equal; lia|]. split; [exact N|]. split; [lia|].
    intro e. rewrite H, in_app_iff. cbn [In]. split.
    + intros [[K|[K|[]]]|(b & B & C)]; [auto| |right; exists b; auto]. right. exists a. split; [auto|]. split; [exact K|]. apply AB. reflexivity.
    + intros [K|(b & [B|B] & C & D)]; [auto|subst b; auto|right; exists b; auto].
Qed.

Lemma nlines_spec r i s snr fit : nth_error (r_sol r) i = Some s -> known rest s ->
  exists ids, getNLinesOverCutThreshold rest r i snr fit = Ok (length ids) /\ NoDup ids /\
    forall e, In e ids <-> exists a, In a s /\ l_elt a = e /\ above_cut rest snr fit a.
Proof.
  intros Hs Kn. unfold getNLinesOverCutThreshold. rewrite (proj2 (vget_Ok _ _ _) Hs). cbn [rbind].
  destruct (nlines_loop_spec snr fit s [] 0 Kn (NoDup_nil _)) as (ids & E & N & _ & H).
  exists ids. simpl in E. rewrite Nat.sub_0_r in E. split; [exact E|]. split; [exact N|]. intro e. rewrite H. split; [intros [[]|K]; exact K|auto].
Qed.

Lemma pos_amp_spec f : pos_amp f = true <-> exists x, f = Some x /\ 0 < x.
Proof.
  unfold pos_amp. destruct f as [x|]; [|split; [discriminate|intros (x & K & _); discriminate K]].
  destruct (Qltb_spec 0 x) as [L|L]; split; try discriminate; eauto. intros (y & K & P). injection K as <-. contradiction.
Qed.

Lemma strong_present_spec filter l : known rest l ->
  exists b, strong_present rest filter l = Ok b /\ (b = true <-> has_strong rest filter l).
Proof.
  induction l as [|a t IH]; intro Kn; cbn [strong_present].
  - exists false. split; [reflexivity|]. split; [discriminate|]. intros (a & k & x & [] & _).
  - unfold rest_at. destruct (rest (l_id a)) as [k|] eqn:R; [|exfalso; apply (Kn a (or_introl eq_refl) R)]. cbn [rbind].
    destruct IH as (b & E & H); [intros c Hc; apply Kn; right; exact Hc|].
    assert (W : (negb (k_strong k) || (Z.eqb filter 1 && negb (k_em k)) || (Z.eqb filter 2 && k_em k))%bool = false <->
      k_strong k = true /\ wanted filter (k_em k)).
    { unfold wanted. destruct (k_strong k), (k_em k), (Z.eqb_spec filter 1), (Z.eqb_spec filter 2); cbn; split; intro; try discriminate; intuition (try congruence; try discriminate). }
    assert (Skip : ~ (k_strong k = true /\ wanted filter (k_em k) /\ l_out a = false /\ exists x, l_amp a = Some x /\ 0 < x) ->
      exists b, strong_present rest filter t = Ok b /\ (b = true <-> has_strong rest filter (a :: t))).
    { intro NA. exists b. split; [exact E|]. rewrite H. split.
      - intros (c & k' & x & C & D). exists c, k', x. split; [right; exact C|exact D].
      - intros (c & k' & x & [C|C] & K1 & K2 & K3 & K4 & K5 & K6); [|exists c, k', x; auto 10]. subst c. exfalso. apply NA.
        assert (k' = k) by congruence. subst k'. eauto 10. }
    destruct (negb (k_strong k) || (Z.eqb filter 1 && negb (k_em k)) || (Z.eqb filter 2 && k_em k))%bool eqn:F.
    + apply Skip. intros (A & B & _). assert (true = false) by (apply W; auto). discriminate.
    + destruct (proj1 W eq_refl) as (K1 & K2).
      destruct (negb (l_out a) && pos_amp (l_amp a))%bool eqn:V.
      * apply Bool.andb_true_iff in V. destruct V as (V1 & V2). apply Bool.negb_true_iff in V1. apply pos_amp_spec in V2. destruct V2 as (x & X & P).
        exists true. split; [reflexivity|]. split; [|auto]. intros _. exists a, k, x. split; [left; reflexivity|]. auto 10.
      * apply Skip. intros (_ & _ & O & X). apply pos_amp_spec in X. rewrite O, X in V. discriminate.
Qed.

(** the running maximum *)
Lemma strongest_loop_spec l : forall m tag, known rest l ->
  exists m' tag', strongest_loop rest l m tag = Ok (m', tag') /\ m <= m' /\
    (forall a k x, In a l -> emitted rest a k x -> x <= m') /\
    ((m' = m /\ tag' = tag /\ forall a k x, In a l -> emitted rest a k x -> x <= m) \/
     exists j a k, nth_error l j = Some a /\ emitted rest a k m' /\ tag' = k_name k /\ m < m' /\
       forall j' a' k' x', (j' < j)%nat -> nth_error l j' = Some a' -> emitted rest a' k' x' -> x' < m').
Proof.
  induction l as [|a t IH]; intros m tag Kn; cbn [strongest_loop].
  - exists m, tag. split; [reflexivity|]. split; [apply Qle_refl|]. split; [intros a k x []|]. left. repeat split; auto. intros a k x [].
  - assert (Kt : known rest t) by (intros b Hb; apply Kn; right; exact Hb).
    unfold rest_at. destruct (rest (l_id a)) as [k|] eqn:R; [|exfalso; apply (Kn a (or_introl eq_refl) R)]. cbn [rbind].
    assert (Skip : (forall k' x, emitted rest a k' x -> x <= m) ->
      exists m' tag', strongest_loop rest t m tag = Ok (m', tag') /\ m <= m' /\
        (forall b k x, In b (a :: t) -> emitted rest b k x -> x <= m') /\
        ((m' = m /\ tag' = tag /\ forall b k x, In b (a :: t) -> emitted rest b k x -> x <= m) \/
         exists j b k, nth_error (a :: t) j = Some b /\ emitted rest b k m' /\ tag' = k_name k /\ m < m' /\
           forall j' a' k' x', (j' < j)%nat -> nth_error (a :: t) j' = Some a' -> emitted rest a' k' x' -> x' < m')).
    { intro NA. destruct (IH m tag Kt) as (m' & tag' & E & Lm & U & D). exists m', tag'. split; [exact E|]. split; [exact Lm|]. split.
      - intros b k' x [B|B] Hx; [subst b; eapply Qle_trans; [eapply NA; exact Hx|exact Lm]|eapply U; eauto].
      - destruct D as [(E1 & E2 & D)|(j & b & k' & J & Eb & T & L & D)].
        + left. repeat split; auto. intros b k' x [B|B] Hx; [subst b; eauto|eauto].
        + right. exists (S j), b, k'. repeat (split; [assumption|]). intros [|j'] a' k2 x' Hj Ha Hx.
          * simpl in Ha. injection Ha as <-. eapply Qle_lt_trans; [eapply NA; exact Hx|exact L].
          * eapply (D j'); eauto. lia. }
    destruct (negb (k_em k) || l_out a)%bool eqn:F.
    + apply Skip. intros k' x (K1 & K2 & K3 & _). exfalso. assert (k' = k) by congruence. subst k'. rewrite K2, K3 in F. discriminate.
    + apply Bool.orb_false_iff in F. destruct F as (F1 & F2). apply Bool.negb_false_iff in F1.
      destruct (l_amp a) as [x|] eqn:Ax.
      2:{ apply Skip. intros k' x (_ & _ & _ & K). congruence. }
      destruct (Qltb_spec m x) as [L|L].
      2:{ apply Skip. intros k' y (_ & _ & _ & K). assert (y = x) by congruence. subst y. apply Qnot_lt_le. exact L. }
      destruct (IH x (k_name k) Kt) as (m' & tag' & E & Lm & U & D). exists m', tag'. split; [exact E|].
      assert (Em : emitted rest a k x) by (repeat split; auto).
      split; [apply Qlt_le_weak; eapply Qlt_le_trans; eauto|]. split.
      * intros b k' y [B|B] Hy; [|eapply U; eauto]. subst b. destruct Hy as (_ & _ & _ & K). assert (y = x) by congruence. subst y. exact Lm.
      * right. destruct D as [(E1 & E2 & D)|(j & b & k' & J & Eb & T & L' & D)].
        -- subst m' tag'. exists 0%nat, a, k. split; [reflexivity|]. split; [exact Em|]. split; [reflexivity|]. split; [exact L|]. intros j' a' k' x' Hj. lia.
        -- exists (S j), b, k'. split; [exact J|]. split; [exact Eb|]. split; [exact T|]. split; [eapply Qlt_trans; eauto|].
           intros [|j'] a' k2 x' Hj Ha Hx; [|eapply (D j'); eauto; lia]. simpl in Ha. injection Ha as <-.
           destruct Hx as (_ & _ & _ & K). assert (x' = x) by congruence. subst x'. exact L'.
Qed.

Lemma dbl_max_pos : 0 < dbl_max.
Proof. unfold dbl_max. reflexivity. Qed.

Lemma strongest_is_ha_spec l : known rest l ->
  exists b, strongest_is_ha rest l = Ok b /\ (b = true <-> ha_strongest rest l).
Proof.
  intro Kn. unfold strongest_is_ha.
  destruct (strongest_loop_spec l (- dbl_max) "undefined"%string Kn) as (m & tag & E & Lm & U & D). rewrite E. cbn [rbind].
  eexists; split; [reflexivity|]. rewrite Bool.andb_true_iff, String.eqb_eq. pose proof dbl_max_pos as DP.
  destruct (Qltb_spec 0 m) as [L|L]; split.
  - intros (_ & T). destruct D as [(E1 & _ & _)|(j & a & k & J & Ea & Tk & _ & D)]; [subst m; exfalso; lra|].
    exists j, a, k, m. split; [exact J|]. split; [exact Ea|]. split; [congruence|]. split; [exact L|].
    intros j' a' k' x' Ha Hx. split; [eapply U; [eapply nth_error_In; exact Ha|exact Hx]|]. intro Hj. eapply D; eauto.
  - intros (j & a & k & x & J & Ea & Nk & P & H). split; [reflexivity|].
    destruct D as [(E1 & _ & D)|(j1 & a1 & k1 & J1 & Ea1 & T1 & L1 & D)]; [subst m; exfalso; lra|].
    assert (X1 : m <= x) by (exact (proj1 (H j1 a1 k1 m J1 Ea1))). assert (X2 : x <= m) by (eapply U; [eapply nth_error_In; exact J|exact Ea]).
    destruct (Nat.lt_trichotomy j j1) as [C|[C|C]].
    + pose proof (D j a k x C J Ea). exfalso. lra.
    + subst j1. assert (a1 = a) by congruence. subst a1. destruct Ea as (R1 & _), Ea1 as (R2 & _). assert (k1 = k) by congruence. congruence.
    + destruct (H j1 a1 k1 m J1 Ea1) as (_ & Hlt). specialize (Hlt C). exfalso. lra.
  - intros (K & _). discriminate.
  - intros (j & a & k & x & J & Ea & Nk & P & H). exfalso. assert (X2 : x <= m) by (eapply U; [eapply nth_error_In; exact J|exact Ea]). lra.
Qed.

Lemma flags_spec (f : list lsol -> res bool) (P : list lsol -> Prop) sols :
  (forall s, known rest s -> exists b, f s = Ok b /\ (b = true <-> P s)) -> (forall s, In s sols -> known rest s) ->
  exists bs, mapr f sols = Ok bs /\ length bs = length sols /\
    forall i s b, nth_error sols i = Some s -> nth_error bs i = Some b -> (b = true <-> P s).
Proof.
  intros Hf Kn. apply (mapr_total' f sols (fun s b => b = true <-> P s)). intros s Hs. apply Hf, Kn, Hs.
Qed.
Lemma presence_spec filter sols : (forall s, In s sols -> known rest s) ->
  exists bs, getStrongLinesPresence rest filter sols = Ok bs /\ length bs = length sols /\
    forall i s b, nth_error sols i = Some s -> nth_error bs i = Some b -> (b = true <-> has_strong rest filter s).
Proof. apply flags_spec. apply strong_present_spec. Qed.
Lemma ha_spec sols : (forall s, In s sols -> known rest s) ->
  exists bs, getStrongestLineIsHa rest sols = Ok bs /\ length bs = length sols /\
    forall i s b, nth_error sols i = Some s -> nth_error bs i = Some b -> (b = true <-> ha_strongest rest s).
Proof. apply flags_spec. apply strongest_is_ha_spec. Qed.
Lemma strongest_throw l1 a l2 m tag : known rest l1 -> rest (l_id a) = None -> strongest_loop rest (l1 ++ a :: l2) m tag = Throw STD_out_of_range.
Proof.
  revert m tag. induction l1 as [|b t IH]; intros m tag Kn R; cbn [strongest_loop app].
  - unfold rest_at. rewrite R. reflexivity.
  - assert (Kt : known rest t) by (intros c Hc; apply Kn; right; exact Hc).
    unfold rest_at. destruct (rest (l_id b)) as [k|] eqn:Rb; [|exfalso; apply (Kn b (or_introl eq_refl) Rb)]. cbn [rbind].
    destruct (negb (k_em k) || l_out b)%bool; [apply IH; auto|]. destruct (l_amp b) as [x|]; [|apply IH; auto]. destruct (Qltb m x); apply IH; auto.
Qed.
End Rest.

Lemma all_cells r : length (r_chi2 r) = length (r_z r) -> mapr (fun i => vget (r_chi2 r) i) (seq 0 (length (r_z r))) = Ok (r_chi2 r).
Proof.
  intros <-. generalize (r_chi2 r). intro l. assert (G : forall pre l0, l = (pre ++ l0)%list -> mapr (fun i => vget l i) (seq (length pre) (length l0)) = Ok l0).
  { intros pre l0; revert pre. induction l0 as [|x t IH]; intros pre E; [reflexivity|]. cbn [length seq mapr].
    rewrite (proj2 (vget_Ok l (length pre) x)); [|rewrite E, nth_error_app2, Nat.sub_diag by lia; reflexivity]. cbn [rbind].
    specialize (IH (pre ++ [x])%list). rewrite app_length in IH. simpl in IH. rewrite Nat.add_1_r in IH. rewrite IH; [reflexivity|].
    rewrite <- app_assoc. exact E. }
  apply (G []). reflexivity.
Qed.

Lemma min_fold vs : forall m, let x := fold_left (fun m v => match v with Some x => if Qltb x m then x else m | None => m end) vs m in
  x <= m /\ (forall v, In (Some v) vs -> x <= v) /\ (x = m \/ In (Some x) vs).
Proof.
  induction vs as [|[v|] t IH]; intro m; cbn [fold_left].
  - split; [apply Qle_refl|]. split; [intros v []|auto].
  - destruct (Qltb_spec v m) as [L|L].
    + destruct (IH v) as (A & B & C). split; [eapply Qle_trans; [exact A|apply Qlt_le_weak; exact L]|]. split.
      * intros u [K|K]; [injection K as <-; exact A|auto].
      * destruct C as [C|C]; [rewrite C; right; left; reflexivity|right; right; exact C].
    + destruct (IH m) as (A & B & C). split; [exact A|]. split.
      * intros u [K|K]; [injection K as <-; eapply Qle_trans; [exact A|apply Qnot_lt_le; exact L]|auto].
      * destruct C as [C|C]; auto. right; right; exact C.
  - destruct (IH m) as (A & B & C). split; [exact A|]. split; [intros u [K|K]; [discriminate|auto]|]. destruct C as [C|C]; auto. right; right; exact C.
Qed.
Lemma max_fold vs : forall m, let x := fold_left (fun m v => match v with Some x => if Qltb m x then x else m | None => m end) vs m in
  m <= x /\ (forall v, In (Some v) vs -> v <= x) /\ (x = m \/ In (Some x) vs).
Proof.
  induction vs as [|[v|] t IH]; intro m; cbn [fold_left].
  - split; [apply Qle_refl|]. split; [intros v []|auto].
  - destruct (Qltb_spec m v) as [L|L].
    + destruct (IH v) as (A & B & C). split; [eapply Qle_trans; [apply Qlt_le_weak; exact L|exact A]|]. split.
      * intros u [K|K]; [injection K as <-; exact A|auto].
      * destruct C as [C|C]; [rewrite C; right; left; reflexivity|right; right; exact C].
    + destruct (IH m) as (A & B & C). split; [exact A|]. split.
      * intros u [K|K]; [injection K as <-; eapply Qle_trans; [apply Qnot_lt_le; exact L|exact A]|auto].
      * destruct C as [C|C]; auto. right; right; exact C.
  - destruct (IH m) as (A & B & C). split; [exact A|]. split; [intros u [K|K]; [discriminate|auto]|]. destruct C as [C|C]; auto. right; right; exact C.
Qed.
Lemma extremes_spec r : length (r_chi2 r) = length (r_z r) ->
  exists lo hi, getMinChiSquare r = Ok lo /\ getMaxChiSquare r = Ok hi /\
    (lo <= dbl_max /\ (forall v, In (Some v) (r_chi2 r) -> lo <= v) /\ (lo = dbl_max \/ In (Some lo) (r_chi2 r))) /\
    (- dbl_max <= hi /\ (forall v, In (Some v) (r_chi2 r) -> v <= hi) /\ (hi = - dbl_max \/ In (Some hi) (r_chi2 r))).
Proof.
  intro L. unfold getMinChiSquare, getMaxChiSquare. rewrite (all_cells r L). cbn [rbind].
  eexists; eexists; split; [reflexivity|]; split; [reflexivity|]. split; [apply min_fold|apply max_fold].
Qed.
