(** Proofs for C75. *)
From Coq Require Import String Reals Qreals Lra.
From Verif Require Import Base MatchModel MatchProofs2 MeikModel MeikProofs EfitModel PrihModel PrihSpec.
Open Scope Q_scope.

Lemma line_values_len : forall n l, List.length (line_values n l) = n.
Proof. induction n as [|n IH]; intros l; cbn [line_values]; [reflexivity|]. destruct l as [|[x|] t]; cbn [List.length]; rewrite IH; reflexivity. Qed.
Lemma line_values_nil : forall n k, (k < n)%nat -> nth_error (line_values n []) k = Some 0.
Proof. induction n as [|n IH]; intros k L; [lia|]. cbn [line_values]. destruct k; [reflexivity|]. cbn [nth_error]. apply IH. lia. Qed.
Lemma line_values_nth : forall n l k, (k < n)%nat -> exists v, nth_error (line_values n l) k = Some v /\ ((number l k v /\ 0 < v) \/ ((forall x, number l k x -> x <= 0) /\ v = 0)).
Proof.
  induction n as [|n IH]; intros l k L; [lia|]. cbn [line_values]. destruct l as [|[x|] t].
  - exists 0. split; [destruct k; [reflexivity|cbn [nth_error]; apply line_values_nil; lia]|]. right. split; [|reflexivity]. intros x (H & _). destruct k; discriminate.
  - destruct k as [|k].
    + cbn [nth_error]. exists (if Qle_bool x 0 then priorminval else x). split; [reflexivity|]. destruct (Qle_bool x 0) eqn:E.
      * right. split; [|reflexivity]. intros y (H & _). cbn in H. inversion H; subst. apply Qle_bool_iff. exact E.
      * left. split; [split; [reflexivity|intros i I0; lia]|]. apply Qnot_le_lt. intros C. apply Qle_bool_iff in C. congruence.
    + cbn [nth_error]. destruct (IH t k ltac:(lia)) as (v & V & W). exists v. split; [exact V|]. assert (NS : forall y, number (Some x :: t) (S k) y <-> number t k y).
      { intros y. unfold number. cbn [nth_error]. split; intros (A & B); (split; [exact A|]); intros i I0.
        - apply (B (S i)). lia.
        - destruct i; [cbn; eauto|]. apply (B i). lia. }
      destruct W as [(A & B)|(A & B)]; [left; split; [apply NS; exact A|exact B]|right; split; [|exact B]]. intros y Y. apply A. apply NS. exact Y.
  - exists 0. split; [destruct k; [reflexivity|cbn [nth_error]; apply line_values_nil; lia]|]. right. split; [|reflexivity]. intros x (H & B). destruct k as [|k]; [cbn in H; discriminate|]. destruct (B 0%nat ltac:(lia)) as (y & Y). cbn in Y. discriminate.
Qed.
Lemma load_nth : forall f kz, nth_error (loadFileEZ f) kz = option_map (line_values nEbv) (nth_error (content f) kz).
Proof. induction f as [|[|l] t IH]; intros kz; cbn [loadFileEZ content flat_map]; [destruct kz; reflexivity|apply IH|]. destruct kz; [reflexivity|]. cbn. apply IH. Qed.
Lemma load_len f : List.length (loadFileEZ f) = List.length (content f).
Proof. induction f as [|[|l] t IH]; cbn [loadFileEZ content flat_map]; [reflexivity|apply IH|]. cbn. f_equal. apply IH. Qed.
Lemma nth_seq n k : (k < n)%nat -> nth_error (seq 0 n) k = Some k.
Proof. intros L. rewrite (nth_error_nth' _ 0%nat) by (rewrite seq_length; exact L). rewrite seq_nth by exact L. reflexivity. Qed.
Lemma table_spec f t : table (loadFileEZ f) = Ok t -> List.length t = nZ /\ (forall r, In r t -> List.length r = nEbv) /\ forall kz ke, (kz < nZ)%nat -> (ke < nEbv)%nat -> exists r v, nth_error t kz = Some r /\ nth_error r ke = Some v /\ cell f kz ke v.
Proof.
  intros H. apply mapr_ok in H. destruct H as (L & H). rewrite seq_length in L. split; [exact L|].
  assert (R : forall kz, (kz < nZ)%nat -> exists r, nth_error t kz = Some r /\ List.length r = nEbv /\ forall ke, (ke < nEbv)%nat -> exists v, nth_error r ke = Some v /\ cell f kz ke v).
  { intros kz K. destruct (H kz kz (nth_seq _ _ K)) as (r & R & E). unfold vget at 1 in E. rewrite load_nth in E. destruct (nth_error (content f) kz) as [l|] eqn:C; cbn [option_map rbind] in E; [|discriminate].
    exists r. split; [exact R|]. apply mapr_ok in E. destruct E as (E1 & E2). rewrite seq_length in E1. split; [exact E1|]. intros ke K2. destruct (E2 ke ke (nth_seq _ _ K2)) as (v & V & W). exists v. split; [exact V|]. exists l. split; [exact C|].
    destruct (line_values_nth nEbv l ke K2) as (v' & V' & S'). unfold vget in W. rewrite V' in W. inversion W; subst. exact S'. }
  split.
  - intros r I0. apply In_nth_error in I0. destruct I0 as (kz & K). assert (KL : (kz < nZ)%nat) by (rewrite <- L; apply nth_error_Some; congruence). destruct (R kz KL) as (r' & A & B & _). congruence.
  - intros kz ke K1 K2. destruct (R kz K1) as (r & A & B & C). destruct (C ke K2) as (v & D & E). exists r, v. auto.
Qed.
Lemma table_total f : (nZ <= List.length (content f))%nat -> exists t, table (loadFileEZ f) = Ok t.
Proof.
  intros L. apply mapr_total. intros kz I0. apply in_seq in I0. unfold vget at 1. rewrite load_nth. destruct (nth_error (content f) kz) as [l|] eqn:C; [|apply nth_error_None in C; lia]. cbn [option_map rbind].
  apply mapr_total. intros ke K. apply in_seq in K. unfold vget. destruct (nth_error (line_values nEbv l) ke) eqn:E; [eauto|]. apply nth_error_None in E. rewrite line_values_len in E. lia.
Qed.
Lemma table_short f : (List.length (content f) < nZ)%nat -> table (loadFileEZ f) = UB.
Proof.
  intros L. unfold table. assert (G : forall n a, (a <= List.length (content f))%nat -> (List.length (content f) < a + n)%nat -> mapr (fun kz => do r <- vget (loadFileEZ f) kz; mapr (vget r) (seq 0 nEbv)) (seq a n) = UB).
  { induction n as [|n IH]; intros a A B; [lia|]. cbn [seq mapr]. unfold vget at 1. rewrite load_nth. destruct (nth_error (content f) a) as [l|] eqn:C; cbn [option_map rbind]; [|reflexivity].
    assert (X : exists y, mapr (vget (line_values nEbv l)) (seq 0 nEbv) = Ok y).
    { apply mapr_total. intros ke K. apply in_seq in K. unfold vget. destruct (nth_error (line_values nEbv l) ke) eqn:E; [eauto|]. apply nth_error_None in E. rewrite line_values_len in E. lia. }
    destruct X as (y & ->). cbn [rbind]. rewrite IH; [reflexivity| |lia]. assert (a < List.length (content f))%nat by (apply nth_error_Some; congruence). lia. }
  apply G; lia.
Qed.
Lemma z_values_spec : forall f r, z_values f = Ok r -> List.length r = List.length (content f) /\ forall kz v, nth_error r kz = Some v -> z_cell f kz v.
Proof.
  induction f as [|[|[|t l]] f IH]; intros r H; cbn [z_values] in H.
  - inversion H. split; [reflexivity|]. intros kz v V. destruct kz; discriminate.
  - destruct (IH r H) as (A & B). split; [exact A|exact B].
  - discriminate.
  - destruct (z_values f) as [r'| |]; cbn [rbind] in H; try discriminate. inversion H; subst. destruct (IH r' eq_refl) as (A & B). split; [cbn; f_equal; exact A|]. intros [|kz] v V.
    + cbn in V. inversion V; subst. exists t, l. split; [reflexivity|]. destruct t as [x|]; [|right; split; [discriminate|reflexivity]]. destruct (Qltb_spec x 0) as [L|L]; [right; split; [intros y Y; inversion Y; subst; exact L|reflexivity]|left; split; [reflexivity|lra]].
    + cbn in V. apply B in V. exact V.
Qed.
Lemma z_values_total : forall f, (forall l, In l (content f) -> l <> []) -> exists r, z_values f = Ok r /\ List.length r = List.length (content f).
Proof.
  induction f as [|[|[|t l]] f IH]; intros H; cbn [z_values].
  - exists []. auto.
  - apply IH. exact H.
  - destruct (H []); [left; reflexivity|reflexivity].
  - destruct IH as (r & -> & L); [intros x X; apply H; right; exact X|]. cbn [rbind]. eexists. split; [reflexivity|]. cbn. f_equal. exact L.
Qed.
Lemma exists_all_spec {A} (g : tplfiles -> option A) l r : exists_all g l = Ok r -> List.length r = List.length l /\ forall i t, nth_error l i = Some t -> exists x, nth_error r i = Some x /\ g t = Some x.
Proof. intros H. apply mapr_ok in H. destruct H as (L & H). split; [exact L|]. intros i t T. destruct (H i t T) as (y & Y & E). exists y. split; [exact Y|]. destruct (g t); [congruence|discriminate]. Qed.
Lemma nth_comb {A B} (a : list A) (b : list B) i x y : nth_error a i = Some x -> nth_error b i = Some y -> nth_error (combine a b) i = Some (x, y).
Proof. revert a b. induction i as [|i IH]; intros [|u a] [|v b]; cbn; try discriminate; [congruence|apply IH]. Qed.
Lemma zip3_nth p m s kz ke rp rm rs vp vm vs : nth_error p kz = Some rp -> nth_error m kz = Some rm -> nth_error s kz = Some rs -> nth_error rp ke = Some vp -> nth_error rm ke = Some vm -> nth_error rs ke = Some vs ->
  exists row, nth_error (zip3 p m s) kz = Some row /\ nth_error row ke = Some (mkEntry vp vs vm).
Proof.
  intros P M S1 VP VM VS. unfold zip3. eexists. split.
  - apply map_nth_error. apply nth_comb; [exact P|]. apply nth_comb; [exact M|exact S1].
  - cbn [fst snd]. erewrite map_nth_error; [|apply nth_comb; [exact VP|apply nth_comb; [exact VM|exact VS]]]. reflexivity.
Qed.
Lemma zip3_len p m s n : List.length p = n -> List.length m = n -> List.length s = n -> List.length (zip3 p m s) = n.
Proof. intros. unfold zip3. rewrite map_length, !combine_length. lia. Qed.
Lemma zip3_rows p m s n : (forall r, In r p -> List.length r = n) -> (forall r, In r m -> List.length r = n) -> (forall r, In r s -> List.length r = n) -> forall r, In r (zip3 p m s) -> List.length r = n.
Proof.
  intros P M S1 r H. unfold zip3 in H. apply in_map_iff in H. destruct H as ((a & b & c) & <- & I0). cbn [fst snd]. rewrite map_length, !combine_length. apply in_combine_l in I0 as A. apply in_combine_r in I0 as B. apply in_combine_l in B as B1. apply in_combine_r in B as B2. rewrite (P _ A), (M _ B1), (S1 _ B2). lia.
Qed.
Lemma Init_spec ts zf bA bTE bZ h : Init (Some (ts, zf)) bA bTE bZ = Ok h -> h_failed h = false /\ h_names h = map t_name ts /\ h_bA h = bA /\ h_bTE h = bTE /\ h_bZ h = bZ /\ shaped h /\
  (forall k t kz ke, nth_error ts k = Some t -> (kz < nZ)%nat -> (ke < nEbv)%nat -> exists d row e mf sf, nth_error (h_data h) k = Some d /\ nth_error d kz = Some row /\ nth_error row ke = Some e /\ t_amean t = Some mf /\ t_asigma t = Some sf /\
    cell (t_ezt t) kz ke (e_p e) /\ cell mf kz ke (e_mean e) /\ cell sf kz ke (e_sigma e)) /\
  exists f, zf = Some f /\ forall kz, (kz < nZ)%nat -> exists v, nth_error (h_pz h) kz = Some v /\ z_cell f kz v.
Proof.
  unfold Init. intros H. destruct (exists_all t_amean ts) as [ms| |] eqn:EM; cbn [rbind] in H; try discriminate. destruct (exists_all t_asigma ts) as [ss| |] eqn:ES; cbn [rbind] in H; try discriminate.
  destruct (mapr _ ts) as [p| |] eqn:P; cbn [rbind] in H; try discriminate. destruct (mapr _ ms) as [m| |] eqn:M; cbn [rbind] in H; try discriminate. destruct (mapr _ ss) as [s| |] eqn:S1; cbn [rbind] in H; try discriminate.
  destruct zf as [f|]; [|discriminate]. destruct (loadFileZ f) as [pz| |] eqn:Z1; cbn [rbind] in H; try discriminate. inversion H; subst; clear H. cbn [h_failed h_names h_bA h_bTE h_bZ h_data h_pz].
  apply exists_all_spec in EM, ES. destruct EM as (LM & EM), ES as (LS & ES). apply mapr_ok in P, M, S1. destruct P as (LP & P), M as (LM2 & M), S1 as (LS2 & S1).
  unfold loadFileZ in Z1. destruct (z_values f) as [pz'| |] eqn:ZV; cbn [rbind] in Z1; try discriminate. destruct (Nat.eqb_spec (List.length pz') nZ) as [LZ|LZ]; [|discriminate]. inversion Z1; subst; clear Z1. apply z_values_spec in ZV.
  assert (T : forall k t, nth_error ts k = Some t -> exists mf sf tp tm tsg, t_amean t = Some mf /\ t_asigma t = Some sf /\ nth_error p k = Some tp /\ nth_error m k = Some tm /\ nth_error s k = Some tsg /\ table (loadFileEZ (t_ezt t)) = Ok tp /\ table (loadFileEZ mf) = Ok tm /\ table (loadFileEZ sf) = Ok tsg).
  { intros k t T0. destruct (EM k t T0) as (mf & A1 & A2). destruct (ES k t T0) as (sf & B1 & B2). destruct (P k t T0) as (tp & C1 & C2). destruct (M k mf A1) as (tm & D1 & D2). destruct (S1 k sf B1) as (tsg & E1 & E2). exists mf, sf, tp, tm, tsg. auto 10. }
  split; [reflexivity|]. split; [reflexivity|]. split; [reflexivity|]. split; [reflexivity|]. split; [reflexivity|]. split; [|split].
  - split; [cbn; rewrite !map_length, !combine_length; lia|]. split; [exact LZ|]. cbn [h_data]. intros d D. apply in_map_iff in D. destruct D as ((a & b & c) & <- & I0). cbn [fst snd].
    apply In_nth_error in I0. destruct I0 as (k & K). assert (KL : (k < List.length ts)%nat) by (assert (k < List.length (combine p (combine m s)))%nat by (apply nth_error_Some; congruence); rewrite combine_length in *; lia).
    destruct (nth_error ts k) as [t|] eqn:T0; [|apply nth_error_None in T0; lia]. destruct (T k t T0) as (mf & sf & tp & tm & tsg & _ & _ & C1 & D1 & E1 & C2 & D2 & E2).
    rewrite (nth_comb _ _ _ _ _ C1 (nth_comb _ _ _ _ _ D1 E1)) in K. inversion K; subst. apply table_spec in C2, D2, E2. split; [apply zip3_len; [apply C2|apply D2|apply E2]|]. apply zip3_rows; [apply C2|apply D2|apply E2].
  - intros k t kz ke T0 K1 K2. destruct (T k t T0) as (mf & sf & tp & tm & tsg & F1 & F2 & C1 & D1 & E1 & C2 & D2 & E2).
    apply table_spec in C2, D2, E2. destruct C2 as (_ & _ & C2), D2 as (_ & _ & D2), E2 as (_ & _ & E2). destruct (C2 kz ke K1 K2) as (r1 & v1 & A1 & A2 & A3). destruct (D2 kz ke K1 K2) as (r2 & v2 & B1 & B2 & B3). destruct (E2 kz ke K1 K2) as (r3 & v3 & G1 & G2 & G3).
    destruct (zip3_nth tp tm tsg kz ke _ _ _ _ _ _ A1 B1 G1 A2 B2 G2) as (row & R1 & R2). exists (zip3 tp tm tsg), row, (mkEntry v1 v3 v2), mf, sf. split; [|auto 10].
    erewrite map_nth_error; [|apply nth_comb; [exact C1|apply nth_comb; [exact D1|exact E1]]]. reflexivity.
  - exists f. split; [reflexivity|]. intros kz K. destruct (nth_error pz kz) as [v|] eqn:V; [|apply nth_error_None in V; lia]. exists v. split; [reflexivity|]. apply ZV. exact V.
Qed.
Lemma Init_total ts f bA bTE bZ : (forall t, In t ts -> exists mf sf, t_amean t = Some mf /\ t_asigma t = Some sf /\ (nZ <= List.length (content (t_ezt t)))%nat /\ (nZ <= List.length (content mf))%nat /\ (nZ <= List.length (content sf))%nat) ->
  List.length (content f) = nZ -> (forall l, In l (content f) -> l <> []) -> exists h, Init (Some (ts, Some f)) bA bTE bZ = Ok h.
Proof.
  intros T L NE. unfold Init.
  assert (E1 : exists ms, exists_all t_amean ts = Ok ms) by (apply mapr_total; intros t I0; destruct (T t I0) as (mf & sf & -> & _); eauto). assert (E2 : exists ss, exists_all t_asigma ts = Ok ss) by (apply mapr_total; intros t I0; destruct (T t I0) as (mf & sf & _ & -> & _); eauto).
  destruct E1 as (ms & E1). destruct E2 as (ss & E2). rewrite E1, E2. cbn [rbind].
  assert (E3 : exists p, mapr (fun t => table (loadFileEZ (t_ezt t))) ts = Ok p) by (apply mapr_total; intros t I0; apply table_total; destruct (T t I0) as (mf & sf & _ & _ & X & _); exact X). destruct E3 as (p & ->). cbn [rbind].
  apply exists_all_spec in E1, E2. destruct E1 as (L1 & E1), E2 as (L2 & E2).
  assert (E4 : exists m, mapr (fun f => table (loadFileEZ f)) ms = Ok m).
  { apply mapr_total. intros x X. apply table_total. apply In_nth_error in X. destruct X as (i & X). assert (IL : (i < List.length ts)%nat) by (rewrite <- L1; apply nth_error_Some; congruence). destruct (nth_error ts i) as [t|] eqn:T0; [|apply nth_error_None in T0; lia]. destruct (E1 i t T0) as (x' & X' & G). destruct (T t (nth_error_In _ _ T0)) as (mf & sf & A & _ & _ & B & _). assert (x = mf) by congruence. subst. exact B. }
  destruct E4 as (m & ->). cbn [rbind].
  assert (E5 : exists s, mapr (fun f => table (loadFileEZ f)) ss = Ok s).
  { apply mapr_total. intros x X. apply table_total. apply In_nth_error in X. destruct X as (i & X). assert (IL : (i < List.length ts)%nat) by (rewrite <- L2; apply nth_error_Some; congruence). destruct (nth_error ts i) as [t|] eqn:T0; [|apply nth_error_None in T0; lia]. destruct (E2 i t T0) as (x' & X' & G). destruct (T t (nth_error_In _ _ T0)) as (mf & sf & _ & A & _ & _ & B). assert (x = sf) by congruence. subst. exact B. }
  destruct E5 as (s & ->). cbn [rbind]. unfold loadFileZ. destruct (z_values_total f NE) as (r & -> & LR). cbn [rbind]. rewrite LR, L, Nat.eqb_refl. cbn [rbind]. eexists. reflexivity.
Qed.

(** ** requests *)
Lemma find_name_spec n : forall l k j, find_name n l k = Some j -> (k <= j)%nat /\ nth_error l (j - k) = Some n /\ forall i, (i < j - k)%nat -> nth_error l i <> Some n.
Proof.
  induction l as [|x t IH]; intros k j H; cbn [find_name] in H; [discriminate|]. destruct (String.eqb_spec x n) as [E|E].
  - inversion H; subst. rewrite Nat.sub_diag. split; [lia|]. split; [reflexivity|]. intros i I0; lia.
  - apply IH in H. destruct H as (A & B & C). split; [lia|]. replace (j - k)%nat with (S (j - S k)) by lia. split; [exact B|]. intros [|i] I0; [cbn; congruence|]. cbn. apply C. lia.
Qed.
Lemma find_name_none n : forall l k, find_name n l k = None <-> ~ In n l.
Proof. induction l as [|x t IH]; intros k; cbn [find_name In]; [intuition|]. destruct (String.eqb_spec x n) as [E|E]; [split; [discriminate|tauto]|]. rewrite IH. tauto. Qed.
Lemma index_ok h n k : getTemplateIndex h n = Ok k -> first_named h n k.
Proof. unfold getTemplateIndex, first_named. destruct (find_name n (h_names h) 0) as [j|] eqn:E; [|discriminate]. intros H. inversion H; subst. apply find_name_spec in E. rewrite Nat.sub_0_r in E. apply E. Qed.
Lemma index_total h n : In n (h_names h) -> exists k, getTemplateIndex h n = Ok k.
Proof. intros H. unfold getTemplateIndex. destruct (find_name n (h_names h) 0) as [j|] eqn:E; [eauto|]. apply find_name_none in E. contradiction. Qed.
Lemma bin_index z : z < 6 -> exists k, getRedshiftIndex z 0 = Ok (Z.of_nat k) /\ bin z k.
Proof.
  intros L. unfold getRedshiftIndex. cbn [Z.eqb andb]. set (q := (z - z0) / dz). assert (QE : q == z * 4) by (unfold q, z0, dz; field). destruct (Qlt_le_dec z 0) as [N|P].
  - exists 0%nat. assert (to_int q <= 0)%Z. { unfold to_int. destruct (Qltb_spec q 0) as [A|A]; [|exfalso; lra]. apply Z.lt_succ_r. rewrite Zlt_Qlt. pose proof (Qceiling_lt q). unfold Z.sub in H. change (inject_Z (Z.succ 0)) with 1. rewrite inject_Z_plus in H. change (inject_Z (-(1))) with (-1) in H. lra. }
    split; [f_equal; lia|]. split; [unfold nZ; lia|]. right; auto.
  - assert (Q0 : 0 <= q) by lra. pose proof (to_int_spec q Q0) as (A & B). assert (0 <= to_int q)%Z. { apply Z.lt_succ_r. rewrite Zlt_Qlt. unfold Z.succ. rewrite inject_Z_plus. change (inject_Z 0) with 0. change (inject_Z 1) with 1. lra. }
    assert (to_int q < 24)%Z by (rewrite Zlt_Qlt; change (inject_Z 24) with 24; lra). exists (Z.to_nat (to_int q)). split; [f_equal; unfold nZ; lia|]. split; [unfold nZ; lia|]. left. rewrite Z2Nat.id by lia. lra.
Qed.
Lemma bin_high z : 6 <= z -> getRedshiftIndex z 0 = Ok 24%Z.
Proof.
  intros L. unfold getRedshiftIndex. cbn [Z.eqb andb]. set (q := (z - z0) / dz). assert (QE : q == z * 4) by (unfold q, z0, dz; field). assert (Q0 : 0 <= q) by lra. pose proof (to_int_spec q Q0) as (A & B).
  assert (24 <= to_int q)%Z. { apply Z.lt_succ_r. rewrite Zlt_Qlt. unfold Z.succ. rewrite inject_Z_plus. change (inject_Z 24) with 24. change (inject_Z 1) with 1. lra. } f_equal. unfold nZ. lia.
Qed.
Lemma Q2R_pos q : 0 < q -> (0 < Q2R q)%R.
Proof. intros H. apply Qlt_Rlt in H. replace (Q2R 0) with 0%R in H by (unfold Q2R; cbn; lra). exact H. Qed.
Lemma fill_spec h k e q : fill h (Z.of_nat k) e = Ok q -> 0 < e_p e /\ densities h k e q.
Proof.
  unfold fill. destruct (Qle_bool (e_p e) 0) eqn:P; [discriminate|]. assert (PP : 0 < e_p e) by (apply Qnot_le_lt; intros C; apply Qle_bool_iff in C; congruence).
  unfold zget. destruct (Z.ltb_spec (Z.of_nat k) 0); [lia|]. rewrite Nat2Z.id. unfold vget. destruct (nth_error (h_pz h) k) as [pz|] eqn:E; cbn [rbind]; [|discriminate]. intros H0. inversion H0; subst; clear H0. split; [exact PP|].
  unfold densities. cbn [q_entry q_bA q_bTE q_bZ q_lTE q_lA q_lZ]. split; [reflexivity|]. split; [reflexivity|]. split; [reflexivity|]. split; [reflexivity|]. split; [apply exp_ln; apply Q2R_pos; exact PP|].
  assert (DA : (0 < Q2R deltaA)%R) by (apply Q2R_pos; reflexivity).
  split; [|split; [|exists pz; split; [first [exact E|reflexivity]|split]]].
  - intros S0. destruct (Qltb_spec 0 (e_sigma e)) as [C|C]; [|lra]. pose proof (Q2R_pos _ S0) as SP. assert (PI2 : (0 < 2 * PI)%R) by (pose proof PI_RGT_0; lra).
    unfold Rminus. rewrite exp_plus, exp_Ropp, (exp_ln _ SP). replace (exp (- / 2 * ln (2 * PI))) with (/ sqrt (2 * PI))%R; [field; split; [apply Rgt_not_eq, sqrt_lt_R0; exact PI2|lra]|].
    rewrite <- (exp_ln (sqrt (2 * PI))) by (apply sqrt_lt_R0; exact PI2). rewrite <- exp_Ropp. f_equal.
    assert (X : (ln (2 * PI) = ln (sqrt (2 * PI)) + ln (sqrt (2 * PI)))%R) by (rewrite <- ln_mult by (apply sqrt_lt_R0; exact PI2); rewrite sqrt_sqrt by lra; reflexivity). lra.
  - intros S0. destruct (Qltb_spec 0 (e_sigma e)) as [C|C]; [lra|]. apply exp_ln. apply Rdiv_lt_0_compat; [lra|exact DA].
  - intros S0. destruct (Qltb_spec 0 pz) as [C|C]; [|lra]. apply exp_ln. apply Rdiv_lt_0_compat; [apply Q2R_pos; exact S0|apply Q2R_pos; reflexivity].
  - intros S0. destruct (Qltb_spec 0 pz) as [C|C]; [lra|reflexivity].
Qed.
Lemma fill_total h k e : List.length (h_pz h) = nZ -> (k < nZ)%nat -> 0 < e_p e -> exists q, fill h (Z.of_nat k) e = Ok q.
Proof.
  intros L K P. unfold fill. destruct (Qle_bool (e_p e) 0) eqn:E; [apply Qle_bool_iff in E; lra|]. unfold zget. destruct (Z.ltb_spec (Z.of_nat k) 0); [lia|]. rewrite Nat2Z.id. unfold vget. destruct (nth_error (h_pz h) k) eqn:N; [cbn; eauto|]. apply nth_error_None in N. lia.
Qed.
Lemma betas h : (Qle_bool (h_bA h) 0 && Qle_bool (h_bTE h) 0 && Qle_bool (h_bZ h) 0)%bool = true <-> ~ some_beta h.
Proof.
  rewrite !andb_true_iff, !Qle_bool_iff. unfold some_beta. split; [intros ((A & B) & C) [D|[D|D]]; lra|]. intros H. split; [split|]; apply Qnot_lt_le; intros C; apply H; auto.
Qed.
Lemma Get_spec h n zs r : shaped h -> h_failed h = false -> (forall z, In z zs -> z < 6) -> GetTplPriorData h n zs 0 = Ok r ->
  some_beta h /\ exists idx d, first_named h n idx /\ nth_error (h_data h) idx = Some d /\ List.length r = List.length zs /\
    forall i z, nth_error zs i = Some z -> exists k row out, bin z k /\ nth_error d k = Some row /\ nth_error r i = Some out /\ List.length out = nEbv /\
      forall ke e, nth_error row ke = Some e -> exists q, nth_error out ke = Some q /\ 0 < e_p e /\ densities h k e q.
Proof.
  intros (S1 & S2 & S3) F Z6. unfold GetTplPriorData. destruct (_ && _ && _)%bool eqn:B; [discriminate|]. rewrite F. intros H. split; [destruct (Qlt_le_dec 0 (h_bA h)) as [X|X]; [left; exact X|]; destruct (Qlt_le_dec 0 (h_bTE h)) as [Y|Y]; [right; left; exact Y|]; destruct (Qlt_le_dec 0 (h_bZ h)) as [Z1|Z1]; [right; right; exact Z1|]; exfalso; rewrite (proj2 (Qle_bool_iff _ _) X), (proj2 (Qle_bool_iff _ _) Y), (proj2 (Qle_bool_iff _ _) Z1) in B; discriminate|].
  destruct (getTemplateIndex h n) as [idx| |] eqn:I0; cbn [rbind] in H; try discriminate. apply index_ok in I0. assert (IL : (idx < List.length (h_data h))%nat) by (rewrite S1; apply nth_error_Some; rewrite (proj1 I0); discriminate).
  destruct (nth_error (h_data h) idx) as [d|] eqn:D; [|apply nth_error_None in D; lia]. exists idx, d. split; [exact I0|]. split; [first [exact D|reflexivity]|]. apply mapr_ok in H. destruct H as (L & H). split; [exact L|].
  intros i z Z1. destruct (H i z Z1) as (out & O & E). destruct (bin_index z (Z6 z (nth_error_In _ _ Z1))) as (k & K & BK). rewrite K in E. cbn [rbind] in E. unfold vget at 1 in E. rewrite D in E. cbn [rbind] in E. unfold zget at 1 in E. destruct (Z.ltb_spec (Z.of_nat k) 0); [lia|]. rewrite Nat2Z.id in E. unfold vget at 1 in E.
  destruct (nth_error d k) as [row|] eqn:R; cbn [rbind] in E; [|discriminate]. exists k, row, out. split; [exact BK|]. split; [first [exact R|reflexivity]|]. split; [exact O|]. apply mapr_ok in E. destruct E as (E1 & E2). destruct (S3 d (nth_error_In _ _ D)) as (_ & RL). split; [rewrite E1; apply RL; exact (nth_error_In _ _ R)|].
  intros ke e KE. destruct (E2 ke e KE) as (q & Q0 & QF). exists q. split; [exact Q0|]. apply fill_spec. exact QF.
Qed.
Lemma Get_total h n zs : shaped h -> h_failed h = false -> some_beta h -> In n (h_names h) -> (forall z, In z zs -> z < 6) -> (forall d row e, In d (h_data h) -> In row d -> In e row -> 0 < e_p e) -> exists r, GetTplPriorData h n zs 0 = Ok r.
Proof.
  intros (S1 & S2 & S3) F SB IN Z6 PO. unfold GetTplPriorData. destruct (_ && _ && _)%bool eqn:B; [apply betas in B; contradiction|]. rewrite F. destruct (index_total h n IN) as (idx & I0). rewrite I0. cbn [rbind]. apply index_ok in I0.
  assert (IL : (idx < List.length (h_data h))%nat) by (rewrite S1; apply nth_error_Some; rewrite (proj1 I0); discriminate). destruct (nth_error (h_data h) idx) as [d|] eqn:D; [|apply nth_error_None in D; lia].
  apply mapr_total. intros z Z1. destruct (bin_index z (Z6 z Z1)) as (k & -> & (KL & _)). cbn [rbind]. unfold vget at 1. rewrite D. cbn [rbind]. destruct (S3 d (nth_error_In _ _ D)) as (DL & _). unfold zget at 1. destruct (Z.ltb_spec (Z.of_nat k) 0); [lia|]. rewrite Nat2Z.id. unfold vget at 1. destruct (nth_error d k) as [row|] eqn:R; [|apply nth_error_None in R; lia]. cbn [rbind].
  apply mapr_total. intros e E. apply fill_total; [exact S2|exact KL|]. apply (PO d row e); [exact (nth_error_In _ _ D)|exact (nth_error_In _ _ R)|exact E].
Qed.
Lemma mapr_first_throw {A B} (f : A -> res B) a l e : f a = Throw e -> mapr f (a :: l) = Throw e.
Proof. intros H. cbn [mapr]. rewrite H. reflexivity. Qed.
Lemma fill_null h k row e : (k < List.length (h_pz h))%nat -> In e row -> e_p e <= 0 -> mapr (fill h (Z.of_nat k)) row = Throw INTERNAL_ERROR.
Proof.
  intros KL. induction row as [|x t IH]; intros I1 P; [destruct I1|]. destruct I1 as [<-|I0].
  - apply mapr_first_throw. unfold fill. rewrite (proj2 (Qle_bool_iff _ _) P). reflexivity.
  - cbn [mapr]. destruct (Qle_bool (e_p x) 0) eqn:E; [unfold fill at 1; rewrite E; reflexivity|]. unfold fill at 1. rewrite E. unfold zget. destruct (Z.ltb_spec (Z.of_nat k) 0); [lia|]. rewrite Nat2Z.id. unfold vget. destruct (nth_error (h_pz h) k) eqn:N; [|apply nth_error_None in N; lia]. cbn [rbind]. rewrite (IH I0 P). reflexivity.
Qed.
Lemma high_ub h n z zs idx : shaped h -> h_failed h = false -> some_beta h -> first_named h n idx -> 6 <= z -> GetTplPriorData h n (z :: zs) 0 = UB.
Proof.
  intros (S1 & S2 & S3) F SB (I0 & _) Z6. unfold GetTplPriorData. destruct (_ && _ && _)%bool eqn:B; [apply betas in B; contradiction|]. rewrite F. destruct (index_total h n (nth_error_In _ _ I0)) as (idx' & I1). rewrite I1. cbn [rbind]. apply index_ok in I1.
  assert (IL : (idx' < List.length (h_data h))%nat) by (rewrite S1; apply nth_error_Some; rewrite (proj1 I1); discriminate). destruct (nth_error (h_data h) idx') as [d|] eqn:D; [|apply nth_error_None in D; lia].
  cbn [mapr]. rewrite (bin_high z Z6). cbn [rbind]. unfold vget at 1. rewrite D. cbn [rbind]. destruct (S3 d (nth_error_In _ _ D)) as (DL & _). unfold zget. cbn [Z.ltb Z.compare]. unfold vget. assert (nth_error d (Z.to_nat 24) = None) as -> by (apply nth_error_None; rewrite DL; unfold nZ; cbn; lia). reflexivity.
Qed.
Lemma floor_pos q : 0 <= q -> (0 <= to_int q)%Z.
Proof. intros Q0. pose proof (to_int_spec q Q0) as (A & B). apply Z.lt_succ_r. rewrite Zlt_Qlt. unfold Z.succ. rewrite inject_Z_plus. change (inject_Z 0) with 0. change (inject_Z 1) with 1. lra. Qed.
Lemma checked z : (0 <= z < 6 -> exists k, getRedshiftIndex z 1 = Ok (Z.of_nat k) /\ bin z k) /\ (z <= - (1 # 4) \/ 6 <= z -> getRedshiftIndex z 1 = Throw INTERNAL_ERROR).
Proof.
  unfold getRedshiftIndex. set (q := (z - z0) / dz). assert (QE : q == z * 4) by (unfold q, z0, dz; field). cbn [Z.eqb Pos.eqb andb]. split.
  - intros (A & B). assert (Q0 : 0 <= q) by lra. pose proof (floor_pos q Q0) as P. pose proof (to_int_spec q Q0) as (C & D). assert (to_int q < 24)%Z by (rewrite Zlt_Qlt; change (inject_Z 24) with 24; lra).
    unfold nZ. destruct (Z.ltb_spec (to_int q) 0); [lia|]. destruct (Z.leb_spec (Z.of_nat 24) (to_int q)); [lia|]. cbn [orb]. exists (Z.to_nat (to_int q)). rewrite Z2Nat.id by exact P. split; [reflexivity|]. split; [unfold nZ; lia|]. left. rewrite Z2Nat.id by exact P. lra.
  - intros [A|A].
    + assert (to_int q < 0)%Z. { unfold to_int. destruct (Qltb_spec q 0) as [N|N]; [|exfalso; lra]. rewrite Zlt_Qlt. change (inject_Z 0) with 0. assert (q <= -1) as L1 by lra. pose proof (Qceiling_lt q) as C. unfold Z.sub in C. rewrite inject_Z_plus in C. change (inject_Z (-(1))) with (-1) in C. lra. }
      destruct (Z.ltb_spec (to_int q) 0); [reflexivity|lia].
    + assert (Q0 : 0 <= q) by lra. pose proof (to_int_spec q Q0) as (C & D). assert (24 <= to_int q)%Z. { apply Z.lt_succ_r. rewrite Zlt_Qlt. unfold Z.succ. rewrite inject_Z_plus. change (inject_Z 24) with 24. change (inject_Z 1) with 1. lra. }
      unfold nZ. destruct (Z.leb_spec (Z.of_nat 24) (to_int q)); [|lia]. rewrite orb_true_r. reflexivity.
Qed.
Lemma low z : - (1 # 4) < z < 0 -> getRedshiftIndex z 1 = Ok 0%Z.
Proof.
  intros (A & B). unfold getRedshiftIndex. set (q := (z - z0) / dz). assert (QE : q == z * 4) by (unfold q, z0, dz; field). cbn [Z.eqb Pos.eqb andb].
  assert (E : to_int q = 0%Z). { unfold to_int. destruct (Qltb_spec q 0) as [N|N]; [|exfalso; lra]. pose proof (Qceiling_lt q) as C. pose proof (Qle_ceiling q) as D. unfold Z.sub in C. rewrite inject_Z_plus in C. change (inject_Z (-(1))) with (-1) in C.
    assert (-1 < Qceiling q)%Z by (rewrite Zlt_Qlt; change (inject_Z (-1)) with (-1); lra). assert (Qceiling q < 1)%Z by (rewrite Zlt_Qlt; change (inject_Z 1) with 1; lra). lia. }
  rewrite E. reflexivity.
Qed.
Lemma bin_unique z k j : bin z k -> bin z j -> k = j.
Proof.
  intros (_ & A) (_ & B). destruct A as [A|(A & ->)], B as [B|(B & ->)]; [|exfalso|exfalso|reflexivity].
  - assert (inject_Z (Z.of_nat k) < inject_Z (Z.of_nat j + 1)) as X by (rewrite inject_Z_plus; change (inject_Z 1) with 1; lra). assert (inject_Z (Z.of_nat j) < inject_Z (Z.of_nat k + 1)) as Y by (rewrite inject_Z_plus; change (inject_Z 1) with 1; lra). rewrite <- Zlt_Qlt in X, Y. lia.
  - assert (0 <= inject_Z (Z.of_nat k)) by (change 0 with (inject_Z 0); rewrite <- Zle_Qle; lia). lra.
  - assert (0 <= inject_Z (Z.of_nat j)) by (change 0 with (inject_Z 0); rewrite <- Zle_Qle; lia). lra.
Qed.
Lemma null_throws h n z idx d row e k : shaped h -> h_failed h = false -> some_beta h -> first_named h n idx -> nth_error (h_data h) idx = Some d -> z < 6 -> bin z k -> nth_error d k = Some row -> In e row -> e_p e = priorminval ->
  GetTplPriorData h n [z] 0 = Throw INTERNAL_ERROR.
Proof.
  intros (S1 & S2 & S3) F SB FN D Z6 BK R IE P. unfold GetTplPriorData. destruct (_ && _ && _)%bool eqn:B; [apply betas in B; contradiction|]. rewrite F. destruct (index_total h n (nth_error_In _ _ (proj1 FN))) as (idx' & I1). rewrite I1. cbn [rbind]. apply index_ok in I1.
  assert (idx' = idx). { destruct FN as (F1 & F2), I1 as (G1 & G2). destruct (Nat.lt_trichotomy idx' idx) as [L|[L|L]]; [destruct (F2 idx' L G1)|exact L|destruct (G2 idx L F1)]. } subst idx'.
  destruct (bin_index z Z6) as (k' & K & BK'). pose proof (bin_unique _ _ _ BK BK'). subst k'. cbn [mapr]. rewrite K. cbn [rbind]. unfold vget at 1. rewrite D. cbn [rbind]. unfold zget at 1. destruct (Z.ltb_spec (Z.of_nat k) 0); [lia|]. rewrite Nat2Z.id. unfold vget at 1. rewrite R. cbn [rbind].
  rewrite (fill_null h k row e); [reflexivity|rewrite S2; apply BK|exact IE|rewrite P; apply Qle_refl].
Qed.
Lemma failed_one h n ebv z mode : h_failed h = true -> some_beta h -> (0 <= ebv < 10)%Z -> GetTZEPriorData h n ebv z mode = UB.
Proof.
  intros F SB E. unfold GetTZEPriorData, GetTplPriorData, nEbv. destruct (Z.ltb_spec ebv 0); [lia|]. destruct (Z.ltb_spec (Z.of_nat 10 - 1) ebv); [lia|]. cbn [orb]. destruct (_ && _ && _)%bool eqn:B; [apply betas in B; contradiction|]. rewrite F. reflexivity.
Qed.
