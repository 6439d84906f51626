(** Filters (C96). *)
From Coq Require Import String Permutation Sorted.
From Verif Require Import Base RdrModel RdrSpec.
Open Scope string_scope.

Lemma pbind_inv {A B} (r : pres A) (f : A -> pres B) b : pbind r f = Val b -> exists a, r = Val a /\ f a = Val b.
Proof. destruct r as [a|e]; cbn; [exists a; auto|discriminate]. Qed.
Lemma Val_inj {A} (a b : A) : Val a = Val b -> a = b.
Proof. congruence. Qed.
Lemma pmap_ok {A B} (f : A -> pres B) l : forall r, pmap f l = Val r -> Forall2 (fun a b => f a = Val b) l r.
Proof.
  induction l as [|a l IH]; intros r E; cbn in E; [apply Val_inj in E; subst; constructor|].
  apply pbind_inv in E. destruct E as (b & Eb & E). apply pbind_inv in E. destruct E as (t & Et & E). apply Val_inj in E. subst.
  constructor; auto.
Qed.
Lemma pmap_total {A B} (f : A -> pres B) l : (forall a, In a l -> exists b, f a = Val b) -> exists r, pmap f l = Val r.
Proof.
  induction l as [|a l IH]; intro H; [exists []; reflexivity|]. destruct (H a (or_introl eq_refl)) as (b & Eb).
  destruct IH as (r & Er); [intros x I; apply H; right; exact I|]. exists (b :: r). cbn. rewrite Eb. cbn. rewrite Er. reflexivity.
Qed.

(** *** dictionaries *)
Lemma dget_in {A} k (v : A) d : dget k d = Some v -> In (k, v) d.
Proof.
  induction d as [|(k', w) d IH]; cbn; [discriminate|]. destruct (String.eqb_spec k k') as [->|N].
  - intro E. injection E as ->. left. reflexivity.
  - intro E. right. apply IH, E.
Qed.
Lemma dget_key {A} k (d : dict A) : In k (dkeys d) <-> exists v, dget k d = Some v.
Proof.
  induction d as [|(k', w) d IH]; cbn.
  - split; [intros []|intros (v & E); discriminate].
  - destruct (String.eqb_spec k k') as [->|N].
    + split; [exists w; reflexivity|intros _; left; reflexivity].
    + rewrite <- IH. split; [intros [E|I]; [congruence|exact I]|intro I; right; exact I].
Qed.
Lemma in_dget {A} k (v : A) d : NoDup (dkeys d) -> In (k, v) d -> dget k d = Some v.
Proof.
  induction d as [|(k', w) d IH]; intros N I; [contradiction|]. cbn in N. inversion N as [|? ? N1 N2]; subst. cbn.
  destruct I as [I|I].
  - injection I as <- <-. rewrite String.eqb_refl. reflexivity.
  - destruct (String.eqb_spec k k') as [->|N']; [|apply IH; assumption].
    exfalso. apply N1. apply in_map_iff. exists (k', v). split; [reflexivity|exact I].
Qed.
Lemma dget_put {A} k k' (v : A) d : dget k (dput k' v d) = if k =? k' then Some v else dget k d.
Proof.
  induction d as [|(k0, w) d IH]; cbn.
  - reflexivity.
  - destruct (String.eqb_spec k' k0) as [->|N]; cbn.
    + destruct (String.eqb_spec k k0) as [->|N']; reflexivity.
    + destruct (String.eqb_spec k k0) as [->|N'].
      * destruct (String.eqb_spec k0 k') as [->|_]; [congruence|reflexivity].
      * exact IH.
Qed.
Lemma dmem_key {A} k (d : dict A) : dmem k d = true <-> In k (dkeys d).
Proof. rewrite dget_key. unfold dmem. destruct (dget k d) as [v|]; split; intro H; [exists v; reflexivity|reflexivity|discriminate|destruct H; discriminate]. Qed.

(** *** comparisons *)
Lemma zip_nth {A B C} (f : A -> B -> C) l : forall r k, List.length l = List.length r -> (k < List.length l)%nat ->
  exists a b, nth_error l k = Some a /\ nth_error r k = Some b /\ nth_error (zip_with f l r) k = Some (f a b).
Proof.
  induction l as [|a l IH]; intros r k L K; [cbn in K; lia|]. destruct r as [|b r]; [discriminate|].
  destruct k as [|k]; [exists a, b; repeat split|]. cbn in *. apply IH; lia.
Qed.
Lemma zip_len {A B C} (f : A -> B -> C) l : forall r, List.length l = List.length r -> List.length (zip_with f l r) = List.length l.
Proof. induction l as [|a l IH]; intros [|b r] L; try discriminate; [reflexivity|]. cbn in *. f_equal. apply IH. lia. Qed.
Lemma cells_len c : List.length (cells c) = clen c.
Proof. destruct c; cbn; [apply map_length|reflexivity]. Qed.

(** the mask [m] of a column is given by a predicate on the rows *)
Definition decides (m : list bool) (n : nat) (P : nat -> Prop) : Prop :=
  List.length m = n /\ forall k, (k < n)%nat -> exists b, nth_error m k = Some b /\ (b = true <-> P k).

Lemma operands_spec v n o : operands v n = Val o -> List.length o = n /\ forall k, (k < n)%nat -> exists q, nth_error o k = Some q /\ against v k q.
Proof.
  unfold operands. destruct v as [z|x|l]; intro E.
  - apply Val_inj in E. subst o. split; [apply repeat_length|]. intros k K. exists (inject_Z z). split; [|reflexivity].
    revert k K. induction n as [|n IH]; intros k K; [lia|]. destruct k; [reflexivity|]. cbn. apply IH. lia.
  - apply Val_inj in E. subst o. split; [apply repeat_length|]. intros k K. exists x. split; [|reflexivity].
    revert k K. induction n as [|n IH]; intros k K; [lia|]. destruct k; [reflexivity|]. cbn. apply IH. lia.
  - destruct (Nat.eqb_spec (List.length l) n) as [L|]; [|discriminate]. apply Val_inj in E. subst o. split; [exact L|].
    intros k K. destruct (nth_error l k) as [q|] eqn:N; [exists q; split; [reflexivity|exact N]|]. apply nth_error_None in N. lia.
Qed.
Lemma against_fun v k q q' : against v k q -> against v k q' -> q = q'.
Proof. destruct v; cbn; congruence. Qed.
Lemma compare_spec f v c m : compare f v c = Val m ->
  decides m (clen c) (fun k => exists a q, at_row c k (Some a) /\ against v k q /\ f a q = true) /\
  forall k, (k < clen c)%nat -> exists q, against v k q.
Proof.
  unfold compare. intro E. apply pbind_inv in E. destruct E as (o & Eo & E). apply Val_inj in E. subst m.
  destruct (operands_spec _ _ _ Eo) as (Lo & Ho). split.
  - split; [rewrite zip_len by (rewrite cells_len; auto); apply cells_len|]. intros k K.
    destruct (zip_nth (fun (x : cell) q => match x with Some a => f a q | None => false end) (cells c) o k) as (x & q & Nx & Nq & Nz); [rewrite cells_len; auto|rewrite cells_len; exact K|].
    eexists. split; [exact Nz|]. destruct (Ho k K) as (q' & Nq' & Ag). assert (q' = q) by congruence. subst q'. split.
    + destruct x as [a|]; [|discriminate]. intro F. exists a, q. auto.
    + intros (a & q' & Na & Ag' & F). unfold at_row in Na. assert (x = Some a) by congruence. subst x. rewrite (against_fun _ _ _ _ Ag' Ag) in F. exact F.
  - intros k K. destruct (Ho k K) as (q & _ & A). exists q. exact A.
Qed.
Lemma decides_iff m n P P' : decides m n P -> (forall k, (k < n)%nat -> (P k <-> P' k)) -> decides m n P'.
Proof. intros (L & H) E. split; [exact L|]. intros k K. destruct (H k K) as (b & N & B). exists b. split; [exact N|]. rewrite B. apply E, K. Qed.
Lemma decides_not m n P : decides m n P -> decides (map negb m) n (fun k => ~ P k).
Proof.
  intros (L & H). split; [rewrite map_length; exact L|]. intros k K. destruct (H k K) as (b & N & B). exists (negb b). split.
  - rewrite nth_error_map, N. reflexivity.
  - destruct b; cbn; split; intro X.
    + discriminate.
    + exfalso. apply X, B. reflexivity.
    + intro Y. apply B in Y. discriminate.
    + reflexivity.
Qed.
Lemma negate_spec r n P m : (forall m0, r = Val m0 -> decides m0 n P) -> negate r = Val m -> decides m n (fun k => ~ P k).
Proof. unfold negate. intros H E. apply pbind_inv in E. destruct E as (m0 & E0 & E). apply Val_inj in E. subst m. apply decides_not, H, E0. Qed.
Lemma isin_spec v c m : isin v c = Val m ->
  decides m (clen c) (fun k => exists a l q, v = VList l /\ at_row c k (Some a) /\ In q l /\ (a == q)%Q) /\ exists l, v = VList l.
Proof.
  unfold isin. destruct v as [z|x|l]; try discriminate. intro E. apply Val_inj in E. subst m. split; [|exists l; reflexivity].
  split; [rewrite map_length; apply cells_len|]. intros k K.
  destruct (nth_error (cells c) k) as [x|] eqn:N; [|apply nth_error_None in N; rewrite cells_len in N; lia].
  eexists. split; [rewrite nth_error_map, N; reflexivity|]. split.
  - destruct x as [a|]; [|discriminate]. intro E. apply existsb_exists in E. destruct E as (q & I & E). exists a, l, q.
    repeat split; auto. apply Qeq_bool_eq, E.
  - intros (a & l' & q & El & Na & I & E). injection El as <-. unfold at_row in Na. assert (x = Some a) by congruence. subst x.
    apply existsb_exists. exists q. split; [exact I|]. apply Qeq_eq_bool, E.
Qed.
Lemma bitwise_spec f v c m : bitwise f v c = Val m ->
  decides m (clen c) (fun k => exists a z, integer_at c k a /\ v = VInt z /\ f a z = true) /\
  exists z, v = VInt z /\ forall k, (k < clen c)%nat -> exists a, integer_at c k a.
Proof.
  unfold bitwise. destruct c as [l|l]; try discriminate. destruct v as [z|x|x]; try discriminate. intro E. apply Val_inj in E. subst m.
  split; [|exists z; split; [reflexivity|]].
  - split; [apply map_length|]. intros k K. cbn in K. destruct (nth_error l k) as [a|] eqn:N; [|apply nth_error_None in N; lia].
    eexists. split; [rewrite nth_error_map, N; reflexivity|]. split.
    + intro F. exists a, z. split; [exists l; auto|auto].
    + intros (a' & z' & (l' & El & Na) & Ez & F). congruence.
  - intros k K. cbn in K. destruct (nth_error l k) as [a|] eqn:N; [|apply nth_error_None in N; lia]. exists a, l. auto.
Qed.
Lemma shares_spec a b : negb (Z.land a b =? 0)%Z = true <-> shares_bit a b.
Proof.
  unfold shares_bit. destruct (Z.eqb_spec (Z.land a b) 0) as [E|E]; cbn; split; intro H; try discriminate; try reflexivity.
  - exfalso. destruct H as (n & _ & A & B). assert (X : Z.testbit (Z.land a b) n = true) by (rewrite Z.land_spec, A, B; reflexivity).
    rewrite E, Z.bits_0 in X. discriminate.
  - assert (X : exists n, (0 <= n)%Z /\ Z.testbit (Z.land a b) n = true).
    { destruct (Z.lt_trichotomy (Z.land a b) 0) as [N|[Z0|P]]; [|contradiction|].
      - exists (Z.log2 (Z.pred (- Z.land a b)) + 1)%Z. assert (B := Z.log2_nonneg (Z.pred (- Z.land a b))). split; [lia|]. apply Z.bits_above_log2_neg; lia.
      - exists (Z.log2 (Z.land a b)). split; [apply Z.log2_nonneg|]. apply Z.bit_log2, P. }
    destruct X as (n & N & X). rewrite Z.land_spec in X. apply andb_true_iff in X. exists n. tauto.
Qed.
Lemma integer_fun c k a b : integer_at c k a -> integer_at c k b -> a = b.
Proof. intros (l & E & N) (l' & E' & N'). congruence. Qed.
Lemma at_total c k : (k < clen c)%nat -> exists x, at_row c k x.
Proof. intro K. unfold at_row. destruct (nth_error (cells c) k) as [x|] eqn:N; [exists x; reflexivity|]. apply nth_error_None in N. rewrite cells_len in N. lia. Qed.
Lemma at_fun c k x y : at_row c k x -> at_row c k y -> x = y.
Proof. unfold at_row. congruence. Qed.

Lemma Qltb_iff a b : Qltb a b = true <-> (a < b)%Q.
Proof. destruct (Qltb_spec a b) as [L|L]; split; intro H; [exact L|reflexivity|discriminate|exfalso; lra]. Qed.

Ltac inv_meets H := inversion H; subst; try discriminate.
Theorem comparator_spec i v c m : In i allowed_instructions -> comparator i v c = Val m ->
  decides m (clen c) (fun k => meets v c k i).
Proof.
  intros I E. cbn in I.
  destruct I as [<-|[<-|[<-|[<-|[<-|[<-|[<-|[<-|[<-|[<-|[<-|[<-|[]]]]]]]]]]]]]; unfold comparator in E;
    repeat match type of E with context [String.eqb ?a ?b] => change (String.eqb a b) with true in E || change (String.eqb a b) with false in E end; cbv iota in E.
  - apply compare_spec in E. destruct E as (E & _). eapply decides_iff; [exact E|]. intros k K. split.
    + intros (a & q & A & B & F). apply Qltb_iff in F. apply (m_lt _ _ _ a q); assumption.
    + intro H. inv_meets H. exists a, q. repeat split; auto. apply Qltb_iff. assumption.
  - apply compare_spec in E. destruct E as (E & _). eapply decides_iff; [exact E|]. intros k K. split.
    + intros (a & q & A & B & F). apply Qltb_iff in F. apply (m_gt _ _ _ a q); assumption.
    + intro H. inv_meets H. exists a, q. repeat split; auto. apply Qltb_iff. assumption.
  - apply compare_spec in E. destruct E as (E & _). eapply decides_iff; [exact E|]. intros k K. split.
    + intros (a & q & A & B & F). apply Qle_bool_iff in F. apply (m_le _ _ _ a q); assumption.
    + intro H. inv_meets H. exists a, q. repeat split; auto. apply Qle_bool_iff. assumption.
  - apply compare_spec in E. destruct E as (E & _). eapply decides_iff; [exact E|]. intros k K. split.
    + intros (a & q & A & B & F). apply Qle_bool_iff in F. apply (m_ge _ _ _ a q); assumption.
    + intro H. inv_meets H. exists a, q. repeat split; auto. apply Qle_bool_iff. assumption.
  - apply compare_spec in E. destruct E as (E & _). eapply decides_iff; [exact E|]. intros k K. split.
    + intros (a & q & A & B & F). apply Qeq_bool_eq in F. apply (m_eq _ _ _ a q); assumption.
    + intro H. inv_meets H. exists a, q. repeat split; auto. apply Qeq_eq_bool. assumption.
  - apply isin_spec in E. destruct E as (E & l & ->). eapply decides_iff; [exact E|]. intros k K. split.
    + intros (a & l' & q & El & A & B & F). apply (m_in _ _ _ a l' q); assumption.
    + intro H. inv_meets H. exists a, l0, q. repeat split; auto.
  - assert (V : exists l, v = VList l). { unfold negate in E. apply pbind_inv in E. destruct E as (m0 & E0 & _). apply (isin_spec _ _ _ E0). }
    destruct V as (l & ->). eapply decides_iff; [apply (negate_spec _ _ _ _ (fun m0 H => proj1 (isin_spec _ _ m0 H)) E)|]. intros k K. split.
    + intro N. destruct (at_total c k K) as (x & X). apply (m_notin _ _ _ x l); auto. intros a q -> I Q0. apply N. exists a, l, q. auto.
    + intros H (a & l' & q & El & A & B & F). inv_meets H. injection El as <-. rewrite (at_fun _ _ _ _ H1 A) in H2. injection H0 as <-. apply (H2 a q eq_refl B F).
  - assert (V : forall k, (k < clen c)%nat -> exists q, against v k q). { unfold negate in E. apply pbind_inv in E. destruct E as (m0 & E0 & _). apply (compare_spec _ _ _ _ E0). }
    eapply decides_iff; [apply (negate_spec _ _ _ _ (fun m0 H => proj1 (compare_spec _ _ _ m0 H)) E)|]. intros k K. split.
    + intro N. destruct (at_total c k K) as (x & X). destruct (V k K) as (q & Hq). apply (m_ne _ _ _ x q); auto.
      intros a -> Q0. apply N. exists a, q. repeat split; auto. apply Qeq_eq_bool, Q0.
    + intros H (a & q & A & B & F). inv_meets H. rewrite (at_fun _ _ _ _ H0 A) in H2. rewrite (against_fun _ _ _ _ H1 B) in H2.
      apply (H2 a eq_refl). apply Qeq_bool_eq, F.
  - apply bitwise_spec in E. destruct E as (E & z & -> & V). eapply decides_iff; [exact E|]. intros k K. split.
    + intros (a & z' & A & B & F). apply shares_spec in F. apply (m_and _ _ _ a z'); assumption.
    + intro H. inv_meets H. exists a, z0. repeat split; auto. apply shares_spec. assumption.
  - assert (V : exists z, v = VInt z /\ forall k, (k < clen c)%nat -> exists a, integer_at c k a).
    { unfold negate in E. apply pbind_inv in E. destruct E as (m0 & E0 & _). apply (bitwise_spec _ _ _ _ E0). }
    destruct V as (z & -> & V). eapply decides_iff; [apply (negate_spec _ _ _ _ (fun m0 H => proj1 (bitwise_spec _ _ _ m0 H)) E)|]. intros k K. split.
    + intro N. destruct (V k K) as (a & A). apply (m_nand _ _ _ a z); auto. intro S. apply N. exists a, z. repeat split; auto. apply shares_spec, S.
    + intros H (a & z' & A & B & F). inv_meets H. rewrite (integer_fun _ _ _ _ H0 A) in H2. injection H1 as <-. injection B as <-. apply H2. apply shares_spec, F.
  - apply bitwise_spec in E. destruct E as (E & z & -> & V). eapply decides_iff; [exact E|]. intros k K. split.
    + intros (a & z' & A & B & F). apply (m_and0 _ _ _ a z'); auto. apply orb_true_iff in F. destruct F as [F|F]; [left; apply Z.eqb_eq, F|right; apply shares_spec, F].
    + intro H. inv_meets H. exists a, z0. repeat split; auto. apply orb_true_iff. destruct H2 as [->|S]; [left; reflexivity|right; apply shares_spec, S].
  - apply bitwise_spec in E. destruct E as (E & z & -> & V). eapply decides_iff; [exact E|]. intros k K. split.
    + intros (a & z' & A & B & F). apply (m_xor _ _ _ a z'); auto. intros ->. rewrite Z.lxor_nilpotent in F. discriminate.
    + intro H. inv_meets H. exists a, z0. repeat split; auto. destruct (Z.eqb_spec (Z.lxor a z0) 0) as [X|X]; [|reflexivity].
      apply Z.lxor_eq in X. contradiction.
Qed.
