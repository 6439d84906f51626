(** Merging (C96). *)
From Coq Require Import String Permutation Sorted Psatz.
From Verif Require Import Base RdrModel RdrSpec RdrProofs RdrProofs2 RdrProofs3.
Open Scope string_scope.

Definition qeq (u w : Q) : bool := Qeq_bool u w.
Lemma qeq_iff u w : Qeq_bool u w = true <-> (u == w)%Q.
Proof. split; [apply Qeq_bool_eq|apply Qeq_eq_bool]. Qed.
Lemma qeq_false u w : Qeq_bool u w = false <-> ~ (u == w)%Q.
Proof. rewrite <- qeq_iff. destruct (Qeq_bool u w); split; intro H; auto; try discriminate. exfalso. apply H. reflexivity. Qed.

Definition neq (u w : Q) : bool := negb (Qeq_bool w u).
Lemma neq_iff u w : neq u w = true <-> ~ (w == u)%Q.
Proof. unfold neq. rewrite negb_true_iff. apply qeq_false. Qed.

Lemma uniques_filter u : forall l seen seen', (forall w, existsb (Qeq_bool w) seen = Qeq_bool w u || existsb (Qeq_bool w) seen') ->
  uniques l seen = uniques (filter (neq u) l) seen'.
Proof.
  induction l as [|w l IH]; intros seen seen' H; [reflexivity|]. cbn [uniques filter]. rewrite H. unfold neq at 1. destruct (Qeq_bool w u) eqn:E; cbn [negb orb].
  - apply IH, H.
  - cbn [uniques]. destruct (existsb (Qeq_bool w) seen'); [apply IH, H|]. f_equal. apply IH. intro v. cbn [existsb]. rewrite H.
    destruct (Qeq_bool v w), (Qeq_bool v u), (existsb (Qeq_bool v) seen'); reflexivity.
Qed.
Lemma uniques_cons u l : uniques (u :: l) [] = u :: uniques (filter (neq u) l) [].
Proof. cbn. f_equal. apply uniques_filter. intro w. reflexivity. Qed.
Lemma uniques_in l : forall seen v, In v (uniques l seen) -> In v l.
Proof.
  induction l as [|w l IH]; intros seen v H; [contradiction|]. cbn in H. destruct (existsb (Qeq_bool w) seen); [right; apply (IH _ _ H)|].
  destruct H as [H|H]; [left; exact H|right; apply (IH _ _ H)].
Qed.
Lemma filter_neq_self u l : filter (neq u) (u :: l) = filter (neq u) l.
Proof. cbn. unfold neq at 1. rewrite (proj2 (qeq_iff u u)) by reflexivity. reflexivity. Qed.
Lemma count_filter u v l : ~ (v == u)%Q -> count v (filter (neq u) l) = count v l.
Proof.
  intro N. unfold count. induction l as [|w l IH]; [reflexivity|]. cbn. destruct (neq u w) eqn:E.
  - cbn. destruct (Qeq_bool v w); cbn; rewrite IH; reflexivity.
  - rewrite IH. destruct (Qeq_bool v w) eqn:F; [|reflexivity]. exfalso. apply qeq_iff in F. unfold neq in E. apply negb_false_iff, qeq_iff in E. apply N. lra.
Qed.
Lemma ranks_cons u l : ranks (u :: l) = (seq 0 (count u (u :: l)) ++ ranks (filter (neq u) l))%list.
Proof.
  unfold ranks. rewrite uniques_cons. cbn [map concat]. f_equal. f_equal. apply map_ext_in. intros v V. f_equal.
  apply uniques_in in V. apply filter_In in V. destruct V as (_ & V). apply neq_iff in V. rewrite (count_filter u v l V).
  unfold count. cbn. rewrite (proj2 (qeq_false v u) V). reflexivity.
Qed.
(** the values equal to the first one come first in a sorted list *)
Definition sorted (l : list Q) : Prop := StronglySorted (fun a b => (a <= b)%Q) l.
Lemma sorted_split u l : sorted (u :: l) -> u :: l = (filter (Qeq_bool u) (u :: l) ++ filter (neq u) l)%list.
Proof.
  intro S0. rewrite <- (filter_neq_self u l). assert (H : forall x, In x (u :: l) -> (u <= x)%Q).
  { inversion S0 as [|? ? _ F]; subst. intros x [<-|I]; [lra|]. rewrite Forall_forall in F. apply F, I. }
  revert H S0. generalize (u :: l). clear l. induction l as [|x l IH]; intros H S0; [reflexivity|]. inversion S0 as [|? ? S1 F]; subst.
  cbn [filter]. destruct (Qeq_bool u x) eqn:E.
  - unfold neq at 1. replace (Qeq_bool x u) with true by (symmetry; apply qeq_iff; apply qeq_iff in E; lra). cbn. f_equal. apply IH; [|exact S1].
    intros y I. apply H. right. exact I.
  - assert (L : (u < x)%Q). { assert (A := H x (or_introl eq_refl)). apply qeq_false in E. destruct (Qlt_le_dec u x) as [L|L]; [exact L|exfalso; apply E; lra]. }
    assert (G : filter (Qeq_bool u) l = []).
    { clear -F L. induction l as [|y l IH]; [reflexivity|]. inversion F as [|? ? F1 F2]; subst. cbn. destruct (Qeq_bool u y) eqn:E; [|apply IH, F2]. apply qeq_iff in E. lra. }
    assert (G' : filter (neq u) (x :: l) = x :: l).
    { clear -F L. assert (A : forall y, In y (x :: l) -> (u < y)%Q) by (intros y [<-|I]; [exact L|rewrite Forall_forall in F; specialize (F y I); cbv beta in F; lra]).
      revert A. generalize (x :: l). clear. induction l as [|y l IH]; intro A; [reflexivity|]. cbn. assert (B := A y (or_introl eq_refl)).
      rewrite (proj2 (neq_iff u y)) by lra. f_equal. apply IH. intros z I. apply A. right. exact I. }
    change (x :: l = (filter (Qeq_bool u) l ++ filter (neq u) (x :: l))%list). rewrite G, G'. reflexivity.
Qed.
Lemma sorted_filter f l : sorted l -> sorted (filter f l).
Proof.
  intro S0. induction S0 as [|a l S1 IH F]; [constructor|]. cbn. destruct (f a); [|exact IH]. constructor; [exact IH|].
  apply Forall_forall. intros x I. apply filter_In in I. rewrite Forall_forall in F. apply F, I.
Qed.
Lemma filter_le {A} (f : A -> bool) l : (List.length (filter f l) <= List.length l)%nat.
Proof. induction l as [|a l IH]; cbn; [lia|]. destruct (f a); cbn; lia. Qed.
(** induction on a sorted list by runs of equal values *)
Lemma runs (P : list Q -> Prop) : P [] -> (forall u l, sorted (u :: l) -> P (filter (neq u) l) -> P (u :: l)) -> forall l, sorted l -> P l.
Proof.
  intros P0 PS l. remember (List.length l) as n eqn:En. assert (Hn : (List.length l <= n)%nat) by lia. clear En. revert l Hn.
  induction n as [|n IH]; intros l Hn S0; destruct l as [|u l]; try exact P0; [cbn in Hn; lia|].
  apply PS; [exact S0|]. apply IH; [assert (X := filter_le (neq u) l); cbn in Hn; lia|]. apply sorted_filter. inversion S0; assumption.
Qed.
Lemma Forall2_app' {A B} (R : A -> B -> Prop) a a' b b' : Forall2 R a a' -> Forall2 R b b' -> Forall2 R (a ++ b)%list (a' ++ b')%list.
Proof. apply Forall2_app. Qed.
Lemma run_ranks (R : Q -> nat -> Prop) : forall run s, (forall w k, In w run -> (s <= k < s + List.length run)%nat -> R w k) -> Forall2 R run (seq s (List.length run)).
Proof.
  induction run as [|w run IH]; intros s H; cbn; constructor.
  - apply H; [left; reflexivity|cbn; lia].
  - apply IH. intros v k I K. apply H; [right; exact I|cbn; lia].
Qed.
Lemma count_eq u v l : (u == v)%Q -> count u l = count v l.
Proof.
  intro E. unfold count. f_equal. apply filter_ext. intro w. destruct (Qeq_bool u w) eqn:A, (Qeq_bool v w) eqn:B; auto.
  - apply qeq_iff in A. apply qeq_false in B. exfalso. apply B. lra.
  - apply qeq_iff in B. apply qeq_false in A. exfalso. apply A. lra.
Qed.
Lemma F2_in {A B} (R R' : A -> B -> Prop) l k : Forall2 R l k -> (forall a b, In a l -> R a b -> R' a b) -> Forall2 R' l k.
Proof.
  intro F. induction F as [|a b l k H F IH]; intro X; constructor; [apply X; [left; reflexivity|exact H]|]. apply IH. intros a' b' I. apply X. right. exact I.
Qed.
Lemma F2_len {A B} (R : A -> B -> Prop) l k : Forall2 R l k -> List.length l = List.length k.
Proof. intro F. induction F; cbn; [reflexivity|f_equal; assumption]. Qed.
Lemma ranks_bound l : sorted l -> Forall2 (fun w k => (k < count w l)%nat) l (ranks l).
Proof.
  revert l. apply runs; [constructor|]. intros u l S0 IH. rewrite ranks_cons.
  assert (G : Forall2 (fun w k => (k < count w (u :: l))%nat) (filter (Qeq_bool u) (u :: l) ++ filter (neq u) l) (seq 0 (count u (u :: l)) ++ ranks (filter (neq u) l))).
  { apply Forall2_app'.
    - unfold count at 2. apply run_ranks. intros w k I K. apply filter_In in I. destruct I as (_ & I). apply qeq_iff in I.
      rewrite <- (count_eq u w _ I). unfold count. lia.
    - clear S0. assert (H : forall w, In w (filter (neq u) l) -> (count w (filter (neq u) l) <= count w (u :: l))%nat).
      { intros w I. apply filter_In in I. destruct I as (_ & I). apply neq_iff in I. rewrite (count_filter _ _ _ I). unfold count. cbn. destruct (Qeq_bool w u); cbn; lia. }
      apply (F2_in _ _ _ _ IH). intros w k I K. specialize (H w I). lia. }
  rewrite <- (sorted_split u l S0) in G. exact G.
Qed.

(** *** strictly increasing lists *)
Lemma increasing_sorted l : increasing l = true -> StronglySorted (fun a b => (a < b)%Q) l.
Proof.
  intro H. apply Sorted_StronglySorted; [intros a b c; apply Qlt_trans|].
  induction l as [|a l IH]; [constructor|]. destruct l as [|b l]; [constructor; constructor|]. cbn [increasing] in H. apply andb_true_iff in H. destruct H as (A & B).
  constructor; [apply IH, B|]. constructor. apply Qltb_iff, A.
Qed.
Lemma sorted_increasing l : StronglySorted (fun a b => (a < b)%Q) l -> increasing l = true.
Proof.
  intro S0. induction S0 as [|a l S1 IH F]; [reflexivity|]. destruct l as [|b l]; [reflexivity|]. cbn [increasing]. apply andb_true_iff. split; [|exact IH].
  apply Qltb_iff. inversion F; assumption.
Qed.
Lemma uniques_all l : forall seen, StronglySorted (fun a b => (a < b)%Q) l -> (forall a w, In a seen -> In w l -> (a < w)%Q) -> uniques l seen = l.
Proof.
  induction l as [|w l IH]; intros seen S0 H; [reflexivity|]. inversion S0 as [|? ? S1 F]; subst. cbn.
  destruct (existsb (Qeq_bool w) seen) eqn:E.
  - exfalso. apply existsb_exists in E. destruct E as (a & I & E). apply qeq_iff in E. specialize (H a w I (or_introl eq_refl)). lra.
  - f_equal. apply IH; [exact S1|]. intros a v [<-|I] V; [rewrite Forall_forall in F; apply F, V|apply H; [exact I|right; exact V]].
Qed.
Lemma uniques_len l : forall seen, (List.length (uniques l seen) <= List.length l)%nat.
Proof. induction l as [|w l IH]; intro seen; cbn; [lia|]. specialize (IH seen) as A. specialize (IH (w :: seen)) as B. destruct (existsb _ _); cbn; lia. Qed.

(** *** the merged samples *)
Definition to_row (x : Q * (cell * cell)) : row := (Some (fst x), fst (snd x), snd (snd x)).
Lemma numbers_spec l : forall n, numbers l = Some n -> l = map to_row n.
Proof.
  induction l as [|((w, f), e) l IH]; intros n E; cbn in E; [injection E as <-; reflexivity|].
  destruct w as [w|]; [|discriminate]. destruct (numbers l) as [n'|]; [|discriminate]. injection E as <-. cbn. f_equal. apply IH. reflexivity.
Qed.
Lemma numbers_total l : (forall x, In x l -> wave x <> None) -> exists n, numbers l = Some n.
Proof.
  induction l as [|((w, f), e) l IH]; intro H; [exists []; reflexivity|]. destruct w as [w|]; [|exfalso; apply (H _ (or_introl eq_refl)); reflexivity].
  destruct IH as (n & E); [intros x I; apply H; right; exact I|]. cbn. rewrite E. eexists. reflexivity.
Qed.
Lemma perm_filter {A} (f : A -> bool) a b : Permutation a b -> Permutation (filter f a) (filter f b).
Proof.
  intro P. induction P as [|x a b P IH|x y a|a b c P1 IH1 P2 IH2]; cbn.
  - constructor.
  - destruct (f x); [apply perm_skip|]; exact IH.
  - destruct (f x), (f y); try apply Permutation_refl. apply perm_swap.
  - eapply Permutation_trans; eassumption.
Qed.
Lemma count_rows w n : count w (map fst n) = List.length (filter (same_wave w) (map to_row n)).
Proof. unfold count. induction n as [|x n IH]; [reflexivity|]. cbn. destruct (Qeq_bool w (fst x)); cbn; rewrite IH; reflexivity. Qed.
Lemma zip_shift : forall (s : list (Q * (cell * cell))) ks ws, ws = zip_with shifted (map fst s) ks -> forall (R : Q -> nat -> Prop), Forall2 R (map fst s) ks ->
  Forall2 (fun x y => exists k, R (fst x) k /\ y = (Some (shifted (fst x) k), fst (snd x), snd (snd x))) s
    (zip_with (fun w x => (Some w, fst (snd x), snd (snd x))) ws s).
Proof.
  induction s as [|x s IH]; intros ks ws -> R F; inversion F as [|? k ? ks' H F']; subst; cbn; constructor.
  - exists k. auto.
  - apply (IH ks'); auto.
Qed.
Theorem merge_spec sort_rows l m : sorts sort_rows -> merge sort_rows l = Val m -> merged l m.
Proof.
  intros So E. unfold merge in E. destruct (numbers l) as [n|] eqn:En; [|discriminate]. destruct n as [|n0 n1]; [discriminate|].
  remember (n0 :: n1) as n eqn:Nn. clear Nn n0 n1. apply numbers_spec in En. cbv zeta in E.
  destruct (So n) as (P & S0). remember (sort_rows n) as s eqn:Es. clear Es So.
  remember (zip_with shifted (map fst s) (ranks (map fst s))) as ws eqn:Ew.
  destruct (Nat.eqb_spec (List.length (uniques ws [])) (List.length s)) as [L|]; [|discriminate]. cbn [negb] in E.
  destruct (increasing ws) eqn:I; [|discriminate]. cbn [negb] in E. apply Val_inj in E.
  assert (Sq : sorted (map fst s)).
  { clear -S0. induction S0 as [|a s S1 IH F]; cbn; constructor; [exact IH|]. apply Forall_forall. intros q Q0. apply in_map_iff in Q0.
    destruct Q0 as (x & <- & X). rewrite Forall_forall in F. apply F, X. }
  assert (B := ranks_bound _ Sq). assert (Z := zip_shift s _ ws Ew _ B). rewrite E in Z.
  assert (C : forall w, count w (map fst s) = List.length (filter (same_wave w) l)).
  { intro w. rewrite En, <- count_rows. unfold count. apply Permutation_length, perm_filter, Permutation_map, Permutation_sym, P. }
  split.
  - apply increasing_sorted in I. assert (Lw : List.length ws = List.length s) by (rewrite Ew, zip_len; [apply map_length|apply (F2_len _ _ _ B)]).
    clear -I E Lw. subst m. revert s Lw. induction I as [|w ws I IH F]; intros s Lw; destruct s as [|x s]; try discriminate; cbn; constructor.
    + apply IH. injection Lw as Lw. exact Lw.
    + injection Lw as Lw. clear -F Lw. apply Forall_forall. intros y Y. assert (X : exists v, In v ws /\ wave y = Some v).
      { clear F. revert s Lw Y. induction ws as [|v ws IH]; intros s Lw Y; destruct s as [|z s]; try contradiction; try discriminate. cbn in Y. destruct Y as [<-|Y].
        - exists v. split; [left; reflexivity|reflexivity].
        - injection Lw as Lw. destruct (IH s Lw Y) as (v' & V1 & V2). exists v'. split; [right; exact V1|exact V2]. }
      destruct X as (v & V1 & V2). exists w, v. repeat apply conj; auto. rewrite Forall_forall in F. apply F, V1.
  - exists (map to_row s). split; [rewrite En; apply Permutation_map, P|]. clear -Z C. induction Z as [|x y s0 m (k & K & Y) Z IH]; cbn; constructor.
    + subst y. cbn. repeat apply conj; auto. exists (fst x), k. repeat apply conj; auto; [rewrite <- C; exact K|]. exists (shifted (fst x) k). split; [reflexivity|]. unfold shifted, tick. reflexivity.
    + apply IH.
Qed.
