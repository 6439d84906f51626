(** C70, proofs. *)
From Coq Require Import String Qabs Lqa.
From Verif Require Import Base MeikModel IntegModel IntegSpec IntegProofs MspModel MspSpec.
Open Scope Q_scope.

Lemma in_win_b rs t : in_win rs t = underb rs t. Proof. reflexivity. Qed.
Lemma under_spec rs t : underb rs t = true <-> under rs t.
Proof.
  unfold underb, under. rewrite existsb_exists. split.
  - intros ((b & e) & I & H). apply andb_prop in H. destruct H as (A & B). apply Z.leb_le in A, B. cbn in A, B. exists b, e. split; [exact I|lia].
  - intros (b & e & I & A & B). exists (b, e). split; [exact I|]. apply andb_true_intro. split; apply Z.leb_le; assumption.
Qed.
Lemma under_dec rs t : {under rs t} + {~ under rs t}.
Proof. destruct (underb rs t) eqn:E; [left; apply under_spec; exact E|right; intros C; apply under_spec in C; congruence]. Qed.
Lemma not_under rs t : ~ under rs t -> underb rs t = false.
Proof. intros N. destruct (underb rs t) eqn:E; [exfalso; apply N; apply under_spec; exact E|reflexivity]. Qed.
Lemma type_has flt e : type_ok flt e = has_type flt e.
Proof. destruct flt as [[]|]; unfold type_ok, has_type; destruct (e_em e); reflexivity. Qed.

Section Msp.
  Variable es : list elt.
  Variable offs : option (list nat -> nat -> Q).
  Variable axis : nat -> Q.
  Lemma draw_all cont flt l : forall f t, fold_left (fun f e => if type_ok flt e then drawE cont e f else f) l f t == f t + lines flt l (cont t) t.
  Proof.
    induction l as [|e k IH]; intros f t; cbn [fold_left lines]; [ring|]. rewrite IH, type_has. destruct (has_type flt e); [|ring]. unfold drawE. rewrite in_win_b. destruct (underb (e_win e) t); ring.
  Qed.
  Lemma Refresh flt s t : m_model (refreshModel es offs flt s) t == m_cont s t + offset_at offs [] t + lines flt es (m_cont s t) t.
  Proof. unfold refreshModel. cbn [set_model m_model]. rewrite draw_all. unfold offset_at. destruct offs; ring. Qed.
  Lemma Refresh_rest flt s : m_cont (refreshModel es offs flt s) = m_cont s /\ m_spc (refreshModel es offs flt s) = m_spc s /\ m_noc (refreshModel es offs flt s) = m_noc s.
  Proof. auto. Qed.
  (** under elements *)
  Lemma init_all cont l : forall f t, (under (flat_map e_win l) t -> fold_left (fun f e => initE cont e f) l f t = cont t) /\ (~ under (flat_map e_win l) t -> fold_left (fun f e => initE cont e f) l f t = f t).
  Proof.
    induction l as [|e k IH]; intros f t; cbn [fold_left flat_map]; [split; [intros (b & x & [] & _)|reflexivity]|]. destruct (IH (initE cont e f) t) as (A & B). split.
    - intros (b & x & I & H). destruct (under_dec (flat_map e_win k) t) as [U|U]; [apply A; exact U|]. rewrite (B U). unfold initE. rewrite in_win_b. apply in_app_or in I. destruct I as [I|I].
      + replace (underb (e_win e) t) with true; [reflexivity|]. symmetry. apply under_spec. exists b, x. auto.
      + exfalso. apply U. exists b, x. auto.
    - intros N. rewrite B; [|intros (b & x & I & H); apply N; exists b, x; split; [apply in_or_app; right; exact I|exact H]]. unfold initE. rewrite in_win_b, not_under; [reflexivity|]. intros (b & x & I & H). apply N. exists b, x. split; [apply in_or_app; left; exact I|exact H].
  Qed.
  Lemma draw_none cont l : forall f t, fold_left (fun f e => drawE cont e f) l f t == f t + lines None l (cont t) t.
  Proof. intros f t. rewrite <- (draw_all cont None l f t). reflexivity. Qed.
  Lemma lines_none flt l c t : ~ under (flat_map e_win l) t -> lines flt l c t == 0.
  Proof.
    induction l as [|e k IH]; intros N; cbn [lines]; [reflexivity|]. cbn [flat_map] in N. rewrite not_under by (intros (b & x & I & H); apply N; exists b, x; split; [apply in_or_app; left; exact I|exact H]).
    rewrite IH by (intros (b & x & I & H); apply N; exists b, x; split; [apply in_or_app; right; exact I|exact H]). destruct (has_type flt e); ring.
  Qed.
  Lemma Refresh_under idx l s : mapr (vget es) idx = Ok l -> exists s', refreshUnder es idx s = Ok s' /\ m_cont s' = m_cont s /\ m_spc s' = m_spc s /\ m_noc s' = m_noc s /\ forall t,
    (under (flat_map e_win l) t -> m_model s' t == m_cont s t + lines None l (m_cont s t) t) /\ (~ under (flat_map e_win l) t -> m_model s' t == m_model s t).
  Proof.
    intros E. unfold refreshUnder. rewrite E. cbn [rbind]. eexists. split; [reflexivity|]. cbn [set_model m_cont m_spc m_noc m_model]. split; [reflexivity|]. split; [reflexivity|]. split; [reflexivity|]. intros t. destruct (init_all (m_cont s) l (m_model s) t) as (A & B). split.
    - intros U. rewrite draw_none, (A U). reflexivity.
    - intros U. rewrite draw_none, (B U), (lines_none None l _ t U). ring.
  Qed.
  (** getModel *)
  Lemma getModel_spec cont flt l : forall f t,
    (~ under (flat_map e_win l) t -> getModel_loop cont flt l f t = f t) /\
    (forall e, last_over l t e -> getModel_loop cont flt l f t == cont t + if has_type flt e then e_add e (cont t) t else 0).
  Proof.
    induction l as [|x k IH]; intros f t; cbn [getModel_loop flat_map].
    - split; [reflexivity|]. intros e ([|? ?] & b & C & _); discriminate.
    - set (f1 := if type_ok flt x then _ else _). destruct (IH f1 t) as (A & B). split.
      + intros N. rewrite A by (intros (b & y & I & H); apply N; exists b, y; split; [apply in_or_app; right; exact I|exact H]).
        assert (U : underb (e_win x) t = false) by (apply not_under; intros (b & y & I & H); apply N; exists b, y; split; [apply in_or_app; left; exact I|exact H]).
        unfold f1, drawE, initE. destruct (type_ok flt x); rewrite !in_win_b, U; reflexivity.
      + intros e (a & b & E & U & N). destruct a as [|y a]; cbn in E; inversion E; subst.
        * rewrite A. 2:{ intros (p & q & I & H). apply in_flat_map in I. destruct I as (z & Z1 & Z2). apply (N z Z1). exists p, q. auto. }
          apply under_spec in U. unfold f1, drawE, initE. rewrite type_has. destruct (has_type flt e); rewrite !in_win_b, U; [reflexivity|ring].
        * apply B. exists a, b. auto.
  Qed.
  Lemma GetModel idx l flt s : mapr (vget es) idx = Ok l -> exists f, getModel es idx flt s = Ok f /\ forall t,
    (~ under (flat_map e_win l) t -> f t = 0) /\ (forall e, last_over l t e -> f t == m_cont s t + if has_type flt e then e_add e (m_cont s t) t else 0).
  Proof. intros E. unfold getModel. rewrite E. cbn [rbind]. eexists. split; [reflexivity|]. intros t. apply getModel_spec. Qed.
  Lemma last_exists l t : under (flat_map e_win l) t -> exists e, last_over l t e.
  Proof.
    induction l as [|x k IH]; cbn [flat_map]; [intros (b & e & [] & _)|]. intros U. destruct (under_dec (flat_map e_win k) t) as [K|K].
    - destruct (IH K) as (e & a & b & E & H). exists e, (x :: a), b. split; [rewrite E; reflexivity|exact H].
    - exists x, [], k. split; [reflexivity|]. split.
      + destruct U as (b & e & I & H). apply in_app_or in I. destruct I as [I|I]; [exists b, e; auto|exfalso; apply K; exists b, e; auto].
      + intros y Y (b & e & I & H). apply K. exists b, e. split; [apply in_flat_map; exists y; auto|exact H].
  Qed.

  (** the continuum *)
  Lemma poly_loop_spec k x : forall cs lb acc, poly_loop k x lb acc cs == acc + k * lb * poly_val cs x.
  Proof. induction cs as [|c t IH]; intros lb acc; cbn [poly_loop poly_val fold_right]; [ring|]. rewrite IH. fold (poly_val t x). ring. Qed.
  Lemma TplFit grid icont alpha amp cs s : let s' := setContinuumFromTplFit axis grid icont alpha amp cs s in
    m_model s' = m_model s /\ m_spc s' = m_spc s /\ (forall t, m_cont s' t == (1 - alpha) * (amp * grid t + poly_val cs (axis t)) + alpha * icont t) /\ forall t, m_noc s' t == m_spc s t - m_cont s' t.
  Proof.
    intros s'. subst s'. unfold setContinuumFromTplFit. cbn [m_model m_spc m_cont m_noc]. split; [reflexivity|]. split; [reflexivity|]. split; [|reflexivity]. intros t.
    destruct (Qeq_bool alpha 1) eqn:E1; destruct (Qeq_bool alpha 0) eqn:E0.
    - apply Qeq_bool_eq in E1, E0. rewrite E1 in E0. discriminate.
    - apply Qeq_bool_eq in E1. rewrite E1. ring.
    - apply Qeq_bool_eq in E0. rewrite poly_loop_spec. rewrite E0. ring.
    - rewrite poly_loop_spec. ring.
  Qed.
  Lemma TplFit_ignores grid grid' icont icont' alpha amp cs s : (alpha == 1 \/ forall t, grid t = grid' t) -> (alpha == 0 \/ forall t, icont t = icont' t) ->
    forall t, m_cont (setContinuumFromTplFit axis grid icont alpha amp cs s) t = m_cont (setContinuumFromTplFit axis grid' icont' alpha amp cs s) t.
  Proof.
    intros A B t. unfold setContinuumFromTplFit. cbn [m_cont]. destruct (Qeq_bool alpha 1) eqn:E1; destruct (Qeq_bool alpha 0) eqn:E0; try reflexivity.
    - destruct B as [B|B]; [apply Qeq_bool_neq in E0; contradiction|rewrite B; reflexivity].
    - destruct A as [A|A]; [apply Qeq_bool_neq in E1; contradiction|rewrite A; reflexivity].
    - destruct A as [A|A]; [apply Qeq_bool_neq in E1; contradiction|]. destruct B as [B|B]; [apply Qeq_bool_neq in E0; contradiction|]. rewrite A, B. reflexivity.
  Qed.

  (** weights *)
  Hypothesis UP : growing axis.
  Lemma one_weight_in t b e : (b < t < e)%nat -> one_weight axis t (Z.of_nat b, Z.of_nat e) == proximity axis t b e.
  Proof.
    intros (L & R). unfold one_weight, proximity. cbn [fst snd]. rewrite !Nat2Z.id. destruct (Z.ltb_spec (Z.of_nat b) (Z.of_nat t)); [|lia]. destruct (Z.ltb_spec (Z.of_nat t) (Z.of_nat e)); [|lia]. cbn [andb].
    destruct (Qltb_spec 0 (axis e - axis b)) as [P|P]; [|pose proof (UP b e ltac:(lia)); lra].
    setoid_replace (axis t - axis b - (axis e - axis t)) with (2 * axis t - axis b - axis e) by ring. reflexivity.
  Qed.
  Lemma one_weight_out t b e : ~ (b < t < e)%nat -> one_weight axis t (Z.of_nat b, Z.of_nat e) == 0.
  Proof. intros N. unfold one_weight. cbn [fst snd]. destruct (Z.ltb_spec (Z.of_nat b) (Z.of_nat t)); [|reflexivity]. destruct (Z.ltb_spec (Z.of_nat t) (Z.of_nat e)); [|reflexivity]. exfalso. apply N. lia. Qed.
  Lemma proximity_bounds t b e : (b < t < e)%nat -> 0 < proximity axis t b e <= 1.
  Proof.
    intros (L & R). pose proof (UP b t L). pose proof (UP t e R). unfold proximity. set (w := axis e - axis b). assert (W : 0 < w) by (unfold w; lra).
    assert (A : Qabs (2 * axis t - axis b - axis e) < w). { apply Qabs_case; intros; unfold w; lra. } pose proof (Qabs_nonneg (2 * axis t - axis b - axis e)) as N.
    assert (D1 : Qabs (2 * axis t - axis b - axis e) / w < 1) by (apply Qlt_shift_div_r; lra). assert (D0 : 0 <= Qabs (2 * axis t - axis b - axis e) / w) by (apply Qle_shift_div_l; lra). lra.
  Qed.
  Lemma one_bounds t b e : 0 <= one_weight axis t (Z.of_nat b, Z.of_nat e) <= 1.
  Proof. destruct (lt_dec b t) as [A|A]; [destruct (lt_dec t e) as [B|B]|]; [|rewrite one_weight_out; [lra|lia]|rewrite one_weight_out; [lra|lia]]. rewrite one_weight_in by lia. pose proof (proximity_bounds t b e ltac:(lia)). lra. Qed.
  Lemma fold_max t rs : forall m, let r := fold_left (fun m r => if Qltb m (one_weight axis t r) then one_weight axis t r else m) rs m in
    m <= r /\ (forall p, In p rs -> one_weight axis t p <= r) /\ (r == m \/ exists p, In p rs /\ r == one_weight axis t p).
  Proof.
    induction rs as [|p k IH]; intros m; cbn [fold_left]; [split; [lra|]; split; [intros q []|left; reflexivity]|]. destruct (IH (if Qltb m (one_weight axis t p) then one_weight axis t p else m)) as (A & B & C).
    destruct (Qltb_spec m (one_weight axis t p)) as [L|L]; (split; [lra|]); (split; [intros q [<-|Q]; [lra|apply B; exact Q]|]).
    - destruct C as [C|(q & I & C)]; [right; exists p; split; [left; reflexivity|exact C]|right; exists q; split; [right; exact I|exact C]].
    - destruct C as [C|(q & I & C)]; [left; exact C|right; exists q; split; [right; exact I|exact C]].
  Qed.
  Lemma Weight t rs : let w := weighting axis t (as_Z rs) in
    0 <= w <= 1 /\ (forall b e, In (b, e) rs -> (b < t < e)%nat -> proximity axis t b e <= w) /\
    (w == 0 \/ exists b e, In (b, e) rs /\ (b < t < e)%nat /\ w == proximity axis t b e).
  Proof.
    intros w. destruct (fold_max t (as_Z rs) 0) as (A & B & C). fold (weighting axis t (as_Z rs)) in A, B, C. fold w in A, B, C.
    assert (BD : w <= 1). { destruct C as [C|(p & I & C)]; [lra|]. apply in_map_iff in I. destruct I as ((b & e) & <- & I). cbn [fst snd] in C. pose proof (one_bounds t b e). lra. }
    split; [lra|]. split.
    - intros b e I H. rewrite <- one_weight_in by exact H. apply B. apply in_map_iff. exists (b, e). auto.
    - destruct C as [C|(p & I & C)]; [left; exact C|]. apply in_map_iff in I. destruct I as ((b & e) & <- & I). cbn [fst snd] in C. destruct (lt_dec b t) as [X|X]; [destruct (lt_dec t e) as [Y|Y]|].
      + right. exists b, e. split; [exact I|]. split; [lia|]. rewrite C. apply one_weight_in. lia.
      + left. rewrite C. apply one_weight_out. lia.
      + left. rewrite C. apply one_weight_out. lia.
  Qed.
  (** the lines removed *)
  Lemma lit_same flt : flat_map e_win (filter (fun e => e_lit e && type_ok flt e)%bool es) = lit_windows flt es.
  Proof. unfold lit_windows. f_equal. apply filter_ext. intros e. rewrite type_has. reflexivity. Qed.
  Lemma Removed flt s rs : lit_windows flt es = as_Z rs -> let f := fst (linesRemoved es offs axis flt s) in
    forall t, let bare := m_spc s t - offset_at offs [] t - lines flt es (m_cont s t) t in
      (~ under (as_Z rs) t -> f t == bare) /\
      (under (as_Z rs) t -> f t == (1 - (9 # 10) * weighting axis t (as_Z rs)) * bare + (9 # 10) * weighting axis t (as_Z rs) *
         match flt with Some b => m_cont s t + offset_at offs [] t + lines (Some (negb b)) es (m_cont s t) t | None => m_model s t end).
  Proof.
    intros W f t bare. subst f. unfold linesRemoved. cbn [fst]. rewrite lit_same, W, in_win_b. set (s1 := match flt with Some b => refreshModel es offs (Some (negb b)) s | None => s end).
    assert (C1 : m_cont s1 = m_cont s) by (unfold s1; destruct flt; reflexivity). pose proof (Refresh flt s1 t) as R. rewrite C1 in R.
    assert (Y : m_spc s t - m_model (refreshModel es offs flt s1) t + m_cont s t == bare) by (rewrite R; unfold bare; ring).
    split; intros U.
    - rewrite (not_under _ _ U). exact Y.
    - apply under_spec in U. rewrite U. rewrite Y. assert (F : m_model s1 t == match flt with Some b => m_cont s t + offset_at offs [] t + lines (Some (negb b)) es (m_cont s t) t | None => m_model s t end) by (unfold s1; destruct flt; [apply Refresh|reflexivity]).
      rewrite F. reflexivity.
  Qed.
  Lemma Removed_state flt s : let s2 := snd (linesRemoved es offs axis flt s) in m_cont s2 = m_cont s /\ m_spc s2 = m_spc s /\ m_noc s2 = m_noc s /\ forall t, m_model s2 t == m_cont s t + offset_at offs [] t + lines flt es (m_cont s t) t.
  Proof.
    intros s2. subst s2. unfold linesRemoved. cbn [snd]. set (s1 := match flt with Some b => refreshModel es offs (Some (negb b)) s | None => s end). assert (C1 : m_cont s1 = m_cont s) by (unfold s1; destruct flt; reflexivity).
    split; [cbn; exact C1|]. split; [cbn; unfold s1; destruct flt; reflexivity|]. split; [cbn; unfold s1; destruct flt; reflexivity|]. intros t. rewrite Refresh, C1. reflexivity.
  Qed.
End Msp.
Lemma lines_split b es c t : lines None es c t == lines (Some b) es c t + lines (Some (negb b)) es c t.
Proof. induction es as [|e k IH]; cbn [lines]; [ring|]. rewrite IH. destruct b; unfold has_type; cbn [negb]; destruct (e_em e); cbn [negb]; destruct (underb (e_win e) t); ring. Qed.
Lemma Removed_perfect es axis b s rs : growing axis -> lit_windows (Some b) es = as_Z rs -> forall t, m_spc s t == m_cont s t + lines None es (m_cont s t) t ->
  fst (linesRemoved es None axis (Some b) s) t == m_cont s t + lines (Some (negb b)) es (m_cont s t) t.
Proof.
  intros UP W t P. destruct (Removed es None axis (Some b) s rs W t) as (A & B). cbn [offset_at] in A, B. rewrite (lines_split b) in P. destruct (under_dec (as_Z rs) t) as [U|U]; [rewrite (B U)|rewrite (A U)]; rewrite P; ring.
Qed.
