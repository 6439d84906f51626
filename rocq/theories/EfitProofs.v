From Verif Require Import Base RangeModel AxisModel AxisProofs ElemModel ElemSpec ElemProofs ElemProofs2 ElemProofs3 ElemProofs4 ElemProofs5 EfitModel EfitSpec.
Open Scope Q_scope.

(** * sums *)
Lemma sumn_ext f g n : (forall k, (k < n)%nat -> f k == g k) -> sumn f n == sumn g n.
Proof. induction n as [|n IH]; intros H; cbn [sumn]; [reflexivity|]. rewrite IH by (intros; apply H; lia). rewrite (H n) by lia. reflexivity. Qed.
Lemma sumn_plus f g n : sumn (fun k => f k + g k) n == sumn f n + sumn g n.
Proof. induction n as [|n IH]; cbn [sumn]; [lra|]. rewrite IH. lra. Qed.
Lemma sumn_zero n : sumn (fun _ => 0) n == 0.
Proof. induction n as [|n IH]; cbn [sumn]; [lra|]. rewrite IH. lra. Qed.
Lemma sumn_scale a f n : sumn (fun k => a * f k) n == a * sumn f n.
Proof. induction n as [|n IH]; cbn [sumn]; [lra|]. rewrite IH. lra. Qed.
Lemma sumn_swap (f : nat -> nat -> Q) n m : sumn (fun h => sumn (fun k => f h k) m) n == sumn (fun k => sumn (fun h => f h k) n) m.
Proof.
  induction n as [|n IH]; cbn [sumn].
  - symmetry. apply sumn_zero.
  - rewrite IH. symmetry. apply sumn_plus.
Qed.
Lemma sumn_one f n j : (j < n)%nat -> (forall k, (k < n)%nat -> k <> j -> f k == 0) -> sumn f n == f j.
Proof.
  induction n as [|n IH]; intros A B; [lia|]. cbn [sumn]. destruct (Nat.eq_dec j n) as [->|N].
  - rewrite (sumn_ext _ (fun _ => 0)); [rewrite sumn_zero; lra|]. intros k K. apply B; lia.
  - rewrite IH by (try lia; intros; apply B; lia). rewrite (B n) by lia. lra.
Qed.
Lemma sumn_nonneg f n : (forall k, (k < n)%nat -> 0 <= f k) -> 0 <= sumn f n.
Proof. induction n as [|n IH]; intros H; cbn [sumn]; [lra|]. assert (0 <= f n) by (apply H; lia). assert (0 <= sumn f n) by (apply IH; intros; apply H; lia). lra. Qed.

(** a sum over a list *)
Fixpoint lsum {A} (f : A -> Q) (l : list A) : Q := match l with [] => 0 | x :: t => f x + lsum f t end.
Lemma lsum_app {A} (f : A -> Q) l m : lsum f (l ++ m) == lsum f l + lsum f m.
Proof. induction l as [|x t IH]; cbn [lsum app]; [lra|]. rewrite IH. lra. Qed.
Lemma lsum_ext {A} (f g : A -> Q) l : (forall x, In x l -> f x == g x) -> lsum f l == lsum g l.
Proof. induction l as [|x t IH]; intros H; cbn [lsum]; [reflexivity|]. rewrite IH by (intros; apply H; right; auto). rewrite (H x) by (left; auto). reflexivity. Qed.
Lemma lsum_map {A B} (f : B -> Q) (g : A -> B) l : lsum f (map g l) == lsum (fun x => f (g x)) l.
Proof. induction l as [|x t IH]; cbn [lsum map]; [lra|]. rewrite IH. lra. Qed.
Lemma lsum_seq f n : lsum f (seq 0 n) == sumn f n.
Proof. induction n as [|n IH]; [reflexivity|]. rewrite seq_S, lsum_app, IH. cbn [lsum sumn Nat.add]. lra. Qed.

Lemma zrange_in a b i : In i (zrange a b) <-> (a <= i <= b)%Z.
Proof.
  unfold zrange. rewrite in_map_iff. split.
  - intros (k & E & K). apply in_seq in K. lia.
  - intros H. exists (Z.to_nat (i - a)). split; [lia|]. apply in_seq. lia.
Qed.
Lemma zrange_pick (a b t : Z) (y : Z -> Q) : lsum (fun i => if Z.eqb i t then y i else 0) (zrange a b) == if ((a <=? t) && (t <=? b))%Z%bool then y t else 0.
Proof.
  unfold zrange. rewrite lsum_map, lsum_seq. destruct ((a <=? t)%Z && (t <=? b)%Z)%bool eqn:E.
  - apply andb_true_iff in E. destruct E as [E1 E2]. apply Z.leb_le in E1. apply Z.leb_le in E2.
    rewrite (sumn_one _ _ (Z.to_nat (t - a))); [|lia|].
    + replace (a + Z.of_nat (Z.to_nat (t - a)))%Z with t by lia. rewrite Z.eqb_refl. reflexivity.
    + intros k K N. destruct (Z.eqb_spec (a + Z.of_nat k) t); [lia|reflexivity].
  - rewrite (sumn_ext _ (fun _ => 0)); [apply sumn_zero|]. intros k K. destruct (Z.eqb_spec (a + Z.of_nat k) t); [|reflexivity].
    exfalso. apply andb_false_iff in E. rewrite !Z.leb_gt in E. lia.
Qed.

(** * sum over lines *)
Lemma sum_lines_spec skip f (v : nat -> Q) ls : forall b acc,
  (forall i l, nth_error ls i = Some l -> skip (b + i)%nat = false -> exists y, f (b + i)%nat l = Ok y /\ y == v (b + i)%nat) ->
  exists r, sum_lines skip f b ls acc = Ok r /\ r == acc + lsum (fun i => if skip i then 0 else v i) (seq b (length ls)).
Proof.
  induction ls as [|l t IH]; intros b acc H; cbn [sum_lines lsum length seq].
  - eexists; split; [reflexivity|lra].
  - assert (H' : forall i x, nth_error t i = Some x -> skip (S b + i)%nat = false -> exists y, f (S b + i)%nat x = Ok y /\ y == v (S b + i)%nat).
    { intros i x N K. replace (S b + i)%nat with (b + S i)%nat in * by lia. apply H; auto. }
    destruct (skip b) eqn:E.
    + destruct (IH (S b) acc H') as (r & -> & R). exists r. split; [reflexivity|]. rewrite R. lra.
    + specialize (H 0%nat l). rewrite Nat.add_0_r in H. destruct (H eq_refl E) as (y & -> & Y). cbn [rbind].
      destruct (IH (S b) (acc + y) H') as (r & -> & R). exists r. split; [reflexivity|]. rewrite R, Y. lra.
Qed.
Lemma sum_lines_sum skip f (v : nat -> Q) ls :
  (forall i l, nth_error ls i = Some l -> skip i = false -> exists y, f i l = Ok y /\ y == v i) ->
  exists r, sum_lines skip f 0 ls 0 = Ok r /\ r == sumn (fun i => if skip i then 0 else v i) (length ls).
Proof.
  intros H. destruct (sum_lines_spec skip f v ls 0 0 H) as (r & E & R). exists r. split; [exact E|]. rewrite R, lsum_seq. lra.
Qed.
Lemma sum_lines_throw skip f ls : forall b acc i l e, (forall j x, nth_error ls j = Some x -> skip (b + j)%nat = false -> (exists y, f (b + j)%nat x = Ok y) \/ f (b + j)%nat x = Throw e) ->
  nth_error ls i = Some l -> skip (b + i)%nat = false -> f (b + i)%nat l = Throw e -> sum_lines skip f b ls acc = Throw e.
Proof.
  induction ls as [|x t IH]; intros b acc i l e H N K T; [destruct i; discriminate|]. cbn [sum_lines].
  assert (H' : forall j y, nth_error t j = Some y -> skip (S b + j)%nat = false -> (exists v, f (S b + j)%nat y = Ok v) \/ f (S b + j)%nat y = Throw e).
  { intros j y N' K'. replace (S b + j)%nat with (b + S j)%nat in * by lia. apply H; auto. }
  destruct i as [|i].
  - rewrite Nat.add_0_r in *. cbn in N. inversion N; subst. rewrite K, T. reflexivity.
  - cbn [nth_error] in N. replace (b + S i)%nat with (S b + i)%nat in * by lia.
    destruct (skip b) eqn:E.
    + eapply IH; eauto.
    + pose proof (H 0%nat x) as H0. rewrite Nat.add_0_r in H0. destruct (H0 eq_refl E) as [(y & ->)| ->]; cbn [rbind]; [|reflexivity]. eapply IH; eauto.
Qed.

(** * adding to a spectrum *)
Definition added (f g : list Q) (d : nat -> Q) : Prop :=
  length g = length f /\ forall t v, nth_error f t = Some v -> exists v', nth_error g t = Some v' /\ v' == v + d t.
Lemma added_refl f d : (forall t, d t == 0) -> added f f d.
Proof. intros H. split; [reflexivity|]. intros t v E. exists v. split; [exact E|]. rewrite H. lra. Qed.
Lemma added_trans f g h d e : added f g d -> added g h e -> added f h (fun t => d t + e t).
Proof.
  intros [L A] [M B]. split; [congruence|]. intros t v E. destruct (A t v E) as (v' & E' & V). destruct (B t v' E') as (v2 & E2 & V2).
  exists v2. split; [exact E2|]. rewrite V2, V. lra.
Qed.
Lemma added_ext f g d e : added f g d -> (forall t, (t < length f)%nat -> d t == e t) -> added f g e.
Proof. intros [L A] H. split; [exact L|]. intros t v E. destruct (A t v E) as (v' & E' & V). exists v'. split; [exact E'|]. rewrite V, H; [reflexivity|]. apply nth_error_len in E. exact E. Qed.

Lemma rfold_added {A} (f : list Q -> A -> res (list Q)) (D : A -> nat -> Q) n l : forall flux,
  (forall x fl, In x l -> length fl = n -> exists fl', f fl x = Ok fl' /\ added fl fl' (D x)) -> length flux = n ->
  exists flux', rfold f l flux = Ok flux' /\ added flux flux' (fun t => lsum (fun x => D x t) l).
Proof.
  induction l as [|x t IH]; intros flux H L; cbn [rfold lsum].
  - exists flux. split; [reflexivity|]. apply added_refl. reflexivity.
  - destruct (H x flux (or_introl eq_refl) L) as (f1 & -> & A1). cbn [rbind].
    destruct (IH f1) as (f2 & E & A2); [intros; apply H; [right; auto|auto]|destruct A1; congruence|].
    exists f2. split; [exact E|]. eapply added_trans; eauto.
Qed.

Lemma zget_nat {A} (l : list A) t v : nth_error l t = Some v -> zget l (Z.of_nat t) = Ok v.
Proof. intros E. unfold zget. destruct (Z.ltb_spec (Z.of_nat t) 0); [lia|]. rewrite Nat2Z.id. unfold vget. rewrite E. reflexivity. Qed.
Lemma zset_nat (l : list Q) t v x : nth_error l t = Some v -> exists l', zset l (Z.of_nat t) x = Ok l' /\ length l' = length l /\
  forall u, nth_error l' u = if Nat.eqb u t then Some x else nth_error l u.
Proof.
  intros E. unfold zset. destruct (Z.ltb_spec (Z.of_nat t) 0); [lia|]. rewrite Nat2Z.id.
  revert l E. induction t as [|t IH]; intros [|y l] E; try discriminate; cbn [vset].
  - eexists; split; [reflexivity|]. split; [reflexivity|]. intros [|u]; reflexivity.
  - destruct (IH ltac:(lia) l E) as (l' & -> & L & N). cbn [rbind]. eexists; split; [reflexivity|]. split; [cbn [length]; congruence|].
    intros [|u]; [reflexivity|]. cbn [nth_error Nat.eqb]. apply N.
Qed.
