(** C91: loading a solution. *)
From Coq Require Import String Sorting.Permutation.
From Verif Require Import Base RangeModel RangeProofs F64 RulesModel LyaModel SolModel SolSpec SolProofs SolProofs2.
Open Scope Q_scope.

Lemma limited_capped e a : capped e a (limited e a).
Proof.
  unfold capped, limited. destruct a as [x|]; [|reflexivity]. destruct (t_em e); cbn [negb andb].
  - split; [reflexivity|discriminate].
  - destruct (Qltb_spec 0 (t_limit e)) as [L|L]; cbn [andb]; [|split; [reflexivity|intros _ P; exfalso; lra]]. destruct (Qltb_spec (t_limit e) x) as [M|M].
    + split; [|reflexivity]. intros [E|[E|E]]; [discriminate|exfalso; lra|exfalso; lra].
    + split; [reflexivity|]. intros; exfalso; lra.
Qed.
(** the row r is written in place i of element k, e0 *)
Definition writes (e0 : elt) (k : nat) (r : row) (i : nat) : Prop := r_elt r = Z.of_nat k /\ r_out r = false /\ getLineIndex e0 (r_id r) = Some i.
(** what the rows make of an element *)
Record made (offs : bool) (k : nat) (pre : list row) (d : bool) (e0 e : elt) : Prop := mkMade {
  m_lines : t_lines e = t_lines e0; m_em : t_em e = t_em e0; m_ids : t_ids e = t_ids e0; m_asym : t_asym e = t_asym e0; m_limit : t_limit e = t_limit e0;
  m_lens : List.length (t_amp e) = List.length (t_amp e0) /\ List.length (t_std e) = List.length (t_std e0) /\ List.length (t_off e) = List.length (t_off e0);
  m_in : forall i r, In r pre -> writes e0 k r i -> val (t_amp e) i = limited e0 (r_amp r) /\ val (t_std e) i = r_std r /\ val (t_off e) i = r_off r;
  m_out : forall i, (forall r, In r pre -> ~ writes e0 k r i) -> val (t_amp e) i = val (t_amp e0) i /\ val (t_std e) i = val (t_std e0) i /\ val (t_off e) i = val (t_off e0) i;
  m_first : forall i r, In r pre -> writes e0 k r i -> d = true /\ t_info e = r_info r /\ (if t_em e0 then t_vem e else t_vab e) = r_vel r /\ t_poly e = (if offs then r_poly r else t_poly e0);
  m_none : (forall i r, In r pre -> ~ writes e0 k r i) -> d = false /\ t_info e = t_info e0 /\ (if t_em e0 then t_vem e else t_vab e) = (if t_em e0 then t_vem e0 else t_vab e0) /\ t_poly e = t_poly e0;
  m_other : (if t_em e0 then t_vab e else t_vem e) = (if t_em e0 then t_vab e0 else t_vem e0) }.
Definition good_elt (e : elt) : Prop := elt_ok e /\ distinct_ids (t_lines e).
Definition agree (rows : list row) : Prop := forall r r', In r rows -> In r' rows -> r_elt r = r_elt r' -> r_out r = false -> r_out r' = false -> r_vel r = r_vel r' /\ r_info r = r_info r' /\ r_poly r = r_poly r'.
Lemma made_start offs k e : made offs k [] false e e.
Proof. split; auto; intros; try contradiction; auto. Qed.
Lemma made_skip offs k pre d e0 e r : (forall i, ~ writes e0 k r i) -> made offs k pre d e0 e -> made offs k (pre ++ [r]) d e0 e.
Proof.
  intros H M. destruct M as [M1 M2 M3 M4 M5 M6 M7 M8 M9 M10 M11]. split; auto.
  - intros i r' I Wr. apply in_app_or in I. destruct I as [I|[<-|[]]]; [apply (M7 i r' I Wr)|exfalso; apply (H i Wr)].
  - intros i Hn. apply M8. intros r' I. apply Hn. apply in_or_app. auto.
  - intros i r' I Wr. apply in_app_or in I. destruct I as [I|[<-|[]]]; [apply (M9 i r' I Wr)|exfalso; apply (H i Wr)].
  - intros Hn. apply M10. intros i r' I. apply Hn. apply in_or_app. auto.
Qed.
Lemma val_ne (l : list num) i : val l i = match nth_error l i with Some x => x | None => None end.
Proof. unfold val. revert i. induction l as [|y t IH]; intros [|i]; try reflexivity. apply IH. Qed.
Lemma vset_val (l : list num) i x : (i < List.length l)%nat -> exists m, vset l i x = Ok m /\ List.length m = List.length l /\ val m i = x /\ forall j, j <> i -> val m j = val l j.
Proof.
  intro L. destruct (vset_ok l i x L) as (m & E & Lm & N & O). exists m. split; [exact E|]. split; [exact Lm|]. split; [rewrite val_ne, N; reflexivity|]. intros j Nj. rewrite !val_ne, (O j Nj). reflexivity.
Qed.
Lemma writes_inj e0 k r r' i : good_elt e0 -> writes e0 k r i -> writes e0 k r' i -> r_id r = r_id r'.
Proof.
  intros ((_ & E & _) & D) (_ & _ & G) (_ & _ & G'). pose proof (getLine_spec e0 (r_id r) E D) as H. pose proof (getLine_spec e0 (r_id r') E D) as H'. rewrite G in H. rewrite G' in H'.
  destruct H as (x & N & X), H' as (y & N' & Y). congruence.
Qed.
Lemma nodup_last {A} (f : A -> Z) pre r r' : NoDup (map f (pre ++ [r])) -> In r' pre -> f r' = f r -> False.
Proof. intros D I E. rewrite map_app in D. apply (nodup_app_x _ _ D (f r)); [rewrite <- E; apply in_map, I|left; reflexivity]. Qed.
Lemma made_write offs k pre d e0 e r i : good_elt e0 -> NoDup (map r_id (pre ++ [r])) -> agree (pre ++ [r]) -> writes e0 k r i -> made offs k pre d e0 e ->
  exists e', set_line e i (r_amp r) (r_std r) (r_off r) = Ok e' /\ made offs k (pre ++ [r]) true e0 (if d then e' else set_elt offs e' r).
Proof.
  intros Ge D Ag Wr M. destruct M as [M1 M2 M3 M4 M5 M6 M7 M8 M9 M10 M11].
  assert (Li : (i < List.length (t_lines e0))%nat). { destruct Ge as ((_ & E & _) & De). destruct Wr as (_ & _ & G). pose proof (getLine_spec e0 (r_id r) E De) as H. rewrite G in H. destruct H as (x & N & _). apply (nth_error_len _ _ _ N). }
  pose proof (proj1 Ge) as (_ & _ & _ & La & Ls & Lo). destruct M6 as (K1 & K2 & K3). unfold set_line.
  destruct (vset_val (t_amp e) i (limited e (r_amp r))) as (a & Ea & Xa & Va & Oa); [lia|]. destruct (vset_val (t_std e) i (r_std r)) as (b & Eb & Xb & Vb & Ob); [lia|].
  destruct (vset_val (t_off e) i (r_off r)) as (c & Ec & Xc & Vc & Oc); [lia|]. rewrite Ea. cbn [rbind]. rewrite Eb. cbn [rbind]. rewrite Ec. cbn [rbind]. eexists. split; [reflexivity|].
  assert (Lim : limited e (r_amp r) = limited e0 (r_amp r)) by (unfold limited; rewrite M2, M5; reflexivity). rewrite Lim in Va.
  assert (No : forall r', In r' pre -> ~ writes e0 k r' i). { intros r' I Wr'. apply (nodup_last r_id pre r r' D I). apply (writes_inj e0 k r' r i Ge Wr' Wr). }
  assert (Cells : (forall j r', In r' (pre ++ [r]) -> writes e0 k r' j -> val a j = limited e0 (r_amp r') /\ val b j = r_std r' /\ val c j = r_off r') /\
     (forall j, (forall r', In r' (pre ++ [r]) -> ~ writes e0 k r' j) -> val a j = val (t_amp e0) j /\ val b j = val (t_std e0) j /\ val c j = val (t_off e0) j)).
  { split.
    - intros j r' I Wr'. apply in_app_or in I. destruct I as [I|[Er|[]]].
      + assert (Nj : j <> i) by (intros ->; apply (No r' I Wr')). rewrite (Oa j Nj), (Ob j Nj), (Oc j Nj). apply (M7 j r' I Wr').
      + subst r'. assert (j = i) by (destruct Wr as (_ & _ & G), Wr' as (_ & _ & G'); congruence). subst j. auto.
    - intros j Hn. assert (Nj : j <> i) by (intros ->; apply (Hn r); [apply in_or_app; right; left; reflexivity|exact Wr]). rewrite (Oa j Nj), (Ob j Nj), (Oc j Nj). apply M8. intros r' I. apply Hn. apply in_or_app. auto. }
  destruct Cells as (C1 & C2). assert (Ir : In r (pre ++ [r])) by (apply in_or_app; right; left; reflexivity).
  assert (Same : forall j r', In r' (pre ++ [r]) -> writes e0 k r' j -> r_vel r' = r_vel r /\ r_info r' = r_info r /\ r_poly r' = r_poly r).
  { intros j r' I (E1 & E2 & _). destruct Wr as (F1 & F2 & _). apply (Ag r' r I Ir); congruence. }
  destruct d.
  - assert (Ex : exists j r0, In r0 pre /\ writes e0 k r0 j).
    { destruct (existsb (fun r0 => (Z.eqb (r_elt r0) (Z.of_nat k) && negb (r_out r0) && match getLineIndex e0 (r_id r0) with Some _ => true | None => false end)%bool) pre) eqn:X.
      - apply existsb_exists in X. destruct X as (r0 & I0 & T). apply andb_true_iff in T. destruct T as (T1 & T2). apply andb_true_iff in T1. destruct T1 as (T0 & T1). apply Z.eqb_eq in T0. apply negb_true_iff in T1.
        destruct (getLineIndex e0 (r_id r0)) as [j|] eqn:G; [|discriminate]. exists j, r0. split; [exact I0|]. split; [exact T0|]. split; [exact T1|exact G].
      - exfalso. destruct M10 as (Dd & _); [|discriminate]. intros j r0 I0 (T0 & T1 & G). rewrite (proj2 (existsb_exists _ _)) in X; [discriminate|]. exists r0. split; [exact I0|]. rewrite G, T1. apply Z.eqb_eq in T0. rewrite T0. reflexivity. }
    destruct Ex as (j0 & r0 & I0 & W0). destruct (M9 j0 r0 I0 W0) as (_ & P1 & P2 & P3). assert (I0' : In r0 (pre ++ [r])) by (apply in_or_app; auto). destruct (Same j0 r0 I0' W0) as (S1 & S2 & S3).
    split; cbn; auto; try lia.
    + intros j r' I Wr'. destruct (Same j r' I Wr') as (S1' & S2' & S3'). split; [reflexivity|]. rewrite P1, P2, P3, S1, S2, S3, S1', S2', S3'. auto.
    + intro Hn. exfalso. apply (Hn i r Ir Wr).
  - split; cbn; auto; try lia.
    + intros j r' I Wr'. destruct (Same j r' I Wr') as (S1' & S2' & S3'). split; [reflexivity|]. rewrite S1', S2', S3'. destruct Wr as (W1 & W2 & W3). split; [reflexivity|]. rewrite M2. split; [destruct (t_em e0); reflexivity|].
      destruct offs; [reflexivity|]. assert (Hn : forall i0 r1, In r1 pre -> ~ writes e0 k r1 i0). { intros i0 r1 I1 W4. destruct (M9 i0 r1 I1 W4) as (X & _). discriminate. } apply (M10 Hn).
    + intro Hn. exfalso. apply (Hn i r Ir Wr).
    + rewrite M2. destruct (t_em e0); exact M11.
Qed.
Lemma writes_dec e0 k r : (exists i, writes e0 k r i) \/ forall i, ~ writes e0 k r i.
Proof.
  unfold writes. destruct (Z.eq_dec (r_elt r) (Z.of_nat k)) as [E|E]; [|right; intros i (X & _); contradiction]. destruct (r_out r) eqn:O; [right; intros i (_ & X & _); discriminate|].
  destruct (getLineIndex e0 (r_id r)) as [i|]; [left; exists i; auto|right; intros i (_ & _ & X); discriminate].
Qed.
Lemma load_rows_spec offs e0s rows : Forall good_elt e0s -> forall pre done es, NoDup (map r_id (pre ++ rows)) -> agree (pre ++ rows) ->
  (forall r, In r rows -> r_out r = false -> r_elt r = (-1)%Z \/ exists k, r_elt r = Z.of_nat k /\ (k < List.length e0s)%nat) ->
  List.length done = List.length e0s -> List.length es = List.length e0s ->
  (forall k e0, nth_error e0s k = Some e0 -> exists d e, nth_error done k = Some d /\ nth_error es k = Some e /\ made offs k pre d e0 e) ->
  exists es', load_rows offs rows done es = Ok es' /\ List.length es' = List.length e0s /\ forall k e0, nth_error e0s k = Some e0 -> exists d e, nth_error es' k = Some e /\ made offs k (pre ++ rows) d e0 e.
Proof.
  intro Gd. induction rows as [|r t IH]; intros pre done es D Ag Hk Ld Le Inv.
  { exists es. split; [reflexivity|]. split; [exact Le|]. intros k e0 N. destruct (Inv k e0 N) as (d & e & _ & Ne & M). exists d, e. rewrite app_nil_r. auto. }
  assert (Eapp : pre ++ r :: t = (pre ++ [r]) ++ t) by (rewrite <- app_assoc; reflexivity). rewrite Eapp in D, Ag.
  assert (D1 : NoDup (map r_id (pre ++ [r]))) by (rewrite map_app in D; apply (nodup_app_l _ _ D)).
  assert (Ag1 : agree (pre ++ [r])) by (intros a b Ia Ib; apply Ag; apply in_or_app; auto).
  assert (Hk' : forall r, In r t -> r_out r = false -> r_elt r = (-1)%Z \/ exists k, r_elt r = Z.of_nat k /\ (k < List.length e0s)%nat) by (intros r' I; apply Hk; right; exact I).
  assert (Skip : (forall k e0 i, nth_error e0s k = Some e0 -> ~ writes e0 k r i) ->
     exists es', load_rows offs t done es = Ok es' /\ List.length es' = List.length e0s /\ forall k e0, nth_error e0s k = Some e0 -> exists d e, nth_error es' k = Some e /\ made offs k (pre ++ r :: t) d e0 e).
  { intro Hn. rewrite Eapp. apply IH; auto. intros k e0 N. destruct (Inv k e0 N) as (d & e & Nd & Ne & M). exists d, e. repeat (split; [assumption|]). apply made_skip; [intro i; apply (Hn k e0 i N)|exact M]. }
  cbn [load_rows]. destruct (Z.eqb_spec (r_elt r) (-1)) as [E1|E1]; cbn [orb].
  { apply Skip. intros k e0 i _ (X & _). lia. }
  destruct (r_out r) eqn:O.
  { apply Skip. intros k e0 i _ (_ & X & _). congruence. }
  destruct (Hk r (or_introl eq_refl) O) as [X|(k & Ek & Lk)]; [contradiction|]. rewrite Ek, Nat2Z.id.
  destruct (nth_error e0s k) as [e0|] eqn:N0; [|apply nth_error_None in N0; lia]. destruct (Inv k e0 N0) as (d & e & Nd & Ne & M). rewrite (proj2 (vget_Ok _ _ _) Ne). cbn [rbind].
  assert (Gi : getLineIndex e (r_id r) = getLineIndex e0 (r_id r)) by (unfold getLineIndex; rewrite (m_ids _ _ _ _ _ _ M); reflexivity). rewrite Gi.
  destruct (getLineIndex e0 (r_id r)) as [i|] eqn:G.
  2: { apply Skip. intros k' e0' i N' (X & _ & Y). assert (k' = k) by lia. subst k'. congruence. }
  assert (Wr : writes e0 k r i) by (split; [exact Ek|]; split; [exact O|exact G]). assert (Ge : good_elt e0) by (rewrite Forall_forall in Gd; apply Gd, (nth_error_In _ _ N0)).
  destruct (made_write offs k pre d e0 e r i Ge D1 Ag1 Wr M) as (e' & Es & M'). rewrite Es. cbn [rbind]. rewrite (proj2 (vget_Ok _ _ _) Nd). cbn [rbind].
  assert (Oth : forall k' e0' j, k' <> k -> ~ writes e0' k' r j) by (intros k' e0' j Nk (X & _); lia).
  destruct d.
  - destruct (vset_ok es k e') as (es1 & Ev & L1 & N1 & O1); [lia|]. rewrite Ev. cbn [rbind]. rewrite Eapp. apply IH; auto; try lia.
    intros k' e0' N'. destruct (Nat.eq_dec k' k) as [Q|Q].
    + subst k'. assert (e0' = e0) by congruence. subst e0'. exists true, e'. auto.
    + destruct (Inv k' e0' N') as (d & e2 & Nd2 & Ne2 & M2). exists d, e2. split; [exact Nd2|]. split; [rewrite (O1 k' Q); exact Ne2|]. apply made_skip; [intro j; apply Oth, Q|exact M2].
  - destruct (vset_ok es k (set_elt offs e' r)) as (es1 & Ev & L1 & N1 & O1); [lia|]. rewrite Ev. cbn [rbind]. destruct (vset_ok done k true) as (dn & Ed & L2 & N2 & O2); [lia|]. rewrite Ed. cbn [rbind].
    rewrite Eapp. apply IH; auto; try lia. intros k' e0' N'. destruct (Nat.eq_dec k' k) as [Q|Q].
    + subst k'. assert (e0' = e0) by congruence. subst e0'. exists true, (set_elt offs e' r). auto.
    + destruct (Inv k' e0' N') as (d & e2 & Nd2 & Ne2 & M2). exists d, e2. split; [rewrite (O2 k' Q); exact Nd2|]. split; [rewrite (O1 k' Q); exact Ne2|]. apply made_skip; [intro j; apply Oth, Q|exact M2].
Qed.
