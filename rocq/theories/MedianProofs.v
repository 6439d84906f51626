From Verif Require Import Base SortLib MedianModel MedianSpec.
From Coq Require Import FinFun.
Open Scope Q_scope.

(** ** counting *)
Lemma count_nil f : count f [] = 0%nat. Proof. reflexivity. Qed.
Lemma count_cons f a l : count f (a :: l) = ((if f a then 1 else 0) + count f l)%nat.
Proof. unfold count; simpl. destruct (f a); reflexivity. Qed.
Lemma count_app f l l' : count f (l ++ l') = (count f l + count f l')%nat.
Proof. unfold count. rewrite filter_app, app_length. reflexivity. Qed.
Lemma count_le_length f l : (count f l <= length l)%nat.
Proof. induction l as [|a t IH]; [reflexivity|]. rewrite count_cons. simpl. destruct (f a); lia. Qed.
Lemma count_perm f l l' : Permutation l l' -> count f l = count f l'.
Proof. induction 1; rewrite ?count_cons in *; try lia. Qed.
Lemma count_mono f g l : (forall x, In x l -> f x = true -> g x = true) -> (count f l <= count g l)%nat.
Proof.
  induction l as [|a t IH]; intro H; [reflexivity|]. rewrite !count_cons.
  assert (count f t <= count g t)%nat by (apply IH; intros; apply H; simpl; auto).
  destruct (f a) eqn:E; [rewrite (H a) by (simpl; auto); lia|]. destruct (g a); lia.
Qed.
Lemma count_neg f g l : (forall x, g x = negb (f x)) -> (count f l + count g l)%nat = length l.
Proof.
  intro H. induction l as [|a t IH]; [reflexivity|]. rewrite !count_cons, H. simpl. destruct (f a); simpl; lia.
Qed.
Lemma count_none f l : (forall x, In x l -> f x = false) -> count f l = 0%nat.
Proof.
  induction l as [|a t IH]; intro H; [reflexivity|]. rewrite count_cons, (H a) by (simpl; auto).
  rewrite IH; [reflexivity|]. intros; apply H; simpl; auto.
Qed.
Lemma count_all f l : (forall x, In x l -> f x = true) -> count f l = length l.
Proof.
  induction l as [|a t IH]; intro H; [reflexivity|]. rewrite count_cons, (H a) by (simpl; auto).
  simpl. rewrite IH; [reflexivity|]. intros; apply H; simpl; auto.
Qed.

(** ** order statistics *)
Lemma order_statistic_perm l l' k v : Permutation l l' -> order_statistic l k v -> order_statistic l' k v.
Proof.
  intros P ((x & Hx & E) & H1 & H2). rewrite (count_perm _ _ _ P) in H1. rewrite (count_perm _ _ _ P) in H2. repeat split; auto.
  exists x. split; auto. apply (Permutation_in _ P). exact Hx.
Qed.
Lemma order_statistic_le l k k' v w : order_statistic l k v -> order_statistic l k' w -> (k <= k')%nat -> v <= w.
Proof.
  intros (_ & A1 & A2) (_ & B1 & B2) Hk. destruct (Qlt_le_dec w v) as [H|H]; [|exact H]. exfalso.
  assert (count (fun x => Qle_bool x w) l <= count (fun x => Qltb x v) l)%nat; [|lia].
  apply count_mono. intros x _ Hx. apply Qle_bool_true in Hx. apply Qltb_true. lra.
Qed.
Lemma order_statistic_unique l k v w : order_statistic l k v -> order_statistic l k w -> v == w.
Proof.
  intros H1 H2. apply Qle_antisym; eapply order_statistic_le; eauto.
Qed.
Lemma order_statistic_positions l k v : nth_error l k = Some v ->
  (forall i x, (i < k)%nat -> nth_error l i = Some x -> x <= v) ->
  (forall i x, (k < i)%nat -> nth_error l i = Some x -> v <= x) ->
  order_statistic l k v.
Proof.
  intros Hv Hlo Hhi. split; [exists v; split; [eapply nth_error_In; eauto|lra]|].
  pose proof (nth_error_len _ _ _ Hv) as Hk.
  assert (E : l = firstn k l ++ skipn k l) by (symmetry; apply firstn_skipn).
  assert (F : forall x, In x (firstn k l) -> x <= v).
  { intros x Hx. apply In_nth_error in Hx. destruct Hx as [i Hi].
    pose proof (nth_error_len _ _ _ Hi) as Hil. rewrite firstn_length in Hil.
    apply (Hlo i x); [lia|]. rewrite E. rewrite nth_error_app1 by (rewrite firstn_length; lia). exact Hi. }
  assert (G : forall x, In x (skipn k l) -> v <= x).
  { intros x Hx. apply In_nth_error in Hx. destruct Hx as [i Hi].
    assert (Hn : nth_error l (k + i) = Some x).
    { rewrite E. rewrite nth_error_app2 by (rewrite firstn_length; lia).
      replace (k + i - length (firstn k l))%nat with i by (rewrite firstn_length; lia). exact Hi. }
    destruct i as [|i]; [rewrite Nat.add_0_r in Hn; assert (x = v) by congruence; subst; lra|].
    apply (Hhi (k + S i)%nat x); [lia|exact Hn]. }
  split.
  - rewrite E, count_app. rewrite (count_none _ (skipn k l)).
    + pose proof (count_le_length (fun x => Qltb x v) (firstn k l)). rewrite firstn_length in *. lia.
    + intros x Hx. apply Qltb_false. apply G; exact Hx.
  - rewrite E, count_app. rewrite (count_all _ (firstn k l)).
    + rewrite firstn_length. destruct (skipn k l) as [|y t] eqn:ES.
      * apply (f_equal (@length _)) in ES. rewrite skipn_length in ES. simpl in ES. lia.
      * assert (nth_error l k = Some y).
        { rewrite E. rewrite nth_error_app2 by (rewrite firstn_length; lia).
          replace (k - length (firstn k l))%nat with 0%nat by (rewrite firstn_length; lia). rewrite ?ES. reflexivity. }
        assert (y = v) by congruence. subst y. rewrite count_cons.
        assert (Qle_bool v v = true) by (apply Qle_bool_true; lra). rewrite H0. lia.
    + intros x Hx. apply Qle_bool_true. apply F; exact Hx.
Qed.
Lemma increasing_order_statistic l k v : increasing l -> nth_error l k = Some v -> order_statistic l k v.
Proof.
  intros Hi Hv. apply order_statistic_positions; auto.
  - intros i x Hik Hx. apply (Hi i k); auto.
  - intros i x Hik Hx. apply (Hi k i); auto.
Qed.

(** ** swaps are permutations *)
Lemma swap_perm (p p1 p2 : list Q) i j a b :
  nth_error p i = Some a -> nth_error p j = Some b ->
  vset p i b = Ok p1 -> vset p1 j a = Ok p2 ->
  Permutation p2 p /\ length p2 = length p /\
  forall q, nth_error p2 q = if Nat.eqb q j then Some a else if Nat.eqb q i then Some b else nth_error p q.
Proof.
  intros Ha Hb E1 E2.
  destruct (vset_ok p i b) as (p1' & E1' & L1 & N1 & O1); [eapply nth_error_len; eauto|].
  rewrite E1 in E1'. inversion E1'; subst p1'.
  destruct (vset_ok p1 j a) as (p2' & E2' & L2 & N2 & O2); [rewrite L1; eapply nth_error_len; eauto|].
  rewrite E2 in E2'. inversion E2'; subst p2'.
  assert (N : forall q, nth_error p2 q = if Nat.eqb q j then Some a else if Nat.eqb q i then Some b else nth_error p q).
  { intro q. destruct (Nat.eqb_spec q j) as [->|Hj]; [exact N2|]. rewrite O2 by exact Hj.
    destruct (Nat.eqb_spec q i) as [->|Hi]; [exact N1|]. apply O1; exact Hi. }
  split; [|split; [lia|exact N]].
  apply Permutation_sym, Permutation_nth_error. split; [lia|].
  exists (fun q => if Nat.eqb q j then i else if Nat.eqb q i then j else q). split.
  - intros x y. destruct (Nat.eqb_spec x j), (Nat.eqb_spec x i), (Nat.eqb_spec y j), (Nat.eqb_spec y i); subst; intros; congruence.
  - intro q. rewrite N. destruct (Nat.eqb_spec q j); [congruence|]. destruct (Nat.eqb_spec q i); congruence.
Qed.

(** ** sorting networks: the 0-1 principle *)
Definition bpair (p : list bool) (ij : nat * nat) : res (list bool) :=
  let '(i, j) := ij in
  do a <- vget p i; do b <- vget p j; do p1 <- vset p i (a || b); vset p1 j (a && b).
Fixpoint bnetwork (net : list (nat * nat)) (p : list bool) : res (list bool) :=
  match net with [] => Ok p | c :: t => do p' <- bpair p c; bnetwork t p' end.

Lemma vset_map {A B} (f : A -> B) l i x l' : vset l i x = Ok l' -> vset (map f l) i (f x) = Ok (map f l').
Proof.
  revert i l'; induction l as [|h t IH]; intros i l' H; simpl in *; [discriminate|].
  destruct i as [|i]; [inversion H; reflexivity|].
  destruct (vset t i x) eqn:E; try discriminate. inversion H; subst. rewrite (IH _ _ E). reflexivity.
Qed.
Lemma vset_same {A} (l : list A) i x : nth_error l i = Some x -> vset l i x = Ok l.
Proof.
  revert i; induction l as [|h t IH]; intros i H; destruct i as [|i]; simpl in *; try discriminate.
  - inversion H; reflexivity.
  - rewrite (IH i H). reflexivity.
Qed.

Definition below (t : Q) (x : Q) : bool := Qle_bool x t.

Lemma sort_pair_below t p ij p' : fst ij <> snd ij -> sort_pair p ij = Ok p' ->
  bpair (map (below t) p) ij = Ok (map (below t) p').
Proof.
  destruct ij as [i j]. cbn [fst snd]. intros Hij H. unfold sort_pair in H. unfold bpair.
  destruct (vget p i) as [a| |] eqn:Ea; try discriminate. cbn [rbind] in H.
  destruct (vget p j) as [b| |] eqn:Eb; try discriminate. cbn [rbind] in H.
  apply vget_Ok in Ea, Eb.
  assert (Ea' : vget (map (below t) p) i = Ok (below t a)) by (apply vget_Ok; rewrite nth_error_map, Ea; reflexivity).
  assert (Eb' : vget (map (below t) p) j = Ok (below t b)) by (apply vget_Ok; rewrite nth_error_map, Eb; reflexivity).
  rewrite Ea', Eb'. cbn [rbind].
  destruct (Qltb_spec b a) as [Hba|Hba].
  - destruct (vset p i b) as [p1| |] eqn:E1; try discriminate. cbn [rbind] in H.
    assert (K1 : (below t a || below t b)%bool = below t b) by (unfold below; repeat qcase; auto; lra).
    assert (K2 : (below t a && below t b)%bool = below t a) by (unfold below; repeat qcase; auto; lra).
    rewrite K1, K2. rewrite (vset_map _ _ _ _ _ E1). cbn [rbind]. apply vset_map. exact H.
  - inversion H; subst p'.
    assert (K1 : (below t a || below t b)%bool = below t a) by (unfold below; repeat qcase; auto; lra).
    assert (K2 : (below t a && below t b)%bool = below t b) by (unfold below; repeat qcase; auto; lra).
    rewrite K1, K2. rewrite (vset_same _ i) by (rewrite nth_error_map, Ea; reflexivity). cbn [rbind].
    apply vset_same. rewrite nth_error_map, Eb. reflexivity.
Qed.

Lemma sort_pair_ok p ij : (fst ij < length p)%nat -> (snd ij < length p)%nat ->
  exists p', sort_pair p ij = Ok p' /\ Permutation p' p.
Proof.
  destruct ij as [i j]; cbn [fst snd]; intros Hi Hj. unfold sort_pair.
  destruct (nth_error_lt p i Hi) as [a Ea]. destruct (nth_error_lt p j Hj) as [b Eb].
  rewrite (proj2 (vget_Ok p i a) Ea), (proj2 (vget_Ok p j b) Eb). cbn [rbind].
  destruct (Qltb b a); [|exists p; split; auto].
  destruct (vset_ok p i b Hi) as (p1 & E1 & L1 & _). rewrite E1. cbn [rbind].
  destruct (vset_ok p1 j a) as (p2 & E2 & L2 & _); [lia|]. exists p2. split; [exact E2|].
  destruct (swap_perm p p1 p2 i j a b) as (P & _); auto.
Qed.

Definition net_ok (n : nat) (net : list (nat * nat)) : bool :=
  forallb (fun c => (Nat.ltb (fst c) n && Nat.ltb (snd c) n && negb (Nat.eqb (fst c) (snd c)))%bool) net.

Lemma run_network_ok net : forall p, net_ok (length p) net = true ->
  exists p', run_network net p = Ok p' /\ Permutation p' p /\
     forall t, bnetwork net (map (below t) p) = Ok (map (below t) p').
Proof.
  induction net as [|c net IH]; intros p H; simpl in H.
  - exists p. repeat split; auto.
  - apply andb_prop in H. destruct H as [H1 H2]. apply andb_prop in H1. destruct H1 as [H1 H3].
    apply andb_prop in H1. destruct H1 as [H0 H1]. apply Nat.ltb_lt in H0, H1.
    apply negb_true_iff, Nat.eqb_neq in H3.
    destruct (sort_pair_ok p c H0 H1) as (p1 & E1 & P1).
    destruct (IH p1) as (p2 & E2 & P2 & B2); [rewrite (Permutation_length P1); exact H2|].
    exists p2. cbn [run_network]. rewrite E1. cbn [rbind]. split; [exact E2|]. split; [rewrite P2; exact P1|].
    intro t. cbn [bnetwork]. rewrite (sort_pair_below t p c p1 H3 E1). cbn [rbind]. apply B2.
Qed.

Fixpoint all_bools (n : nat) : list (list bool) :=
  match n with O => [[]] | S k => map (cons true) (all_bools k) ++ map (cons false) (all_bools k) end.
Lemma all_bools_complete n : forall b, length b = n -> In b (all_bools n).
Proof.
  induction n as [|n IH]; intros b H; destruct b as [|x b]; try discriminate; simpl; auto.
  apply in_or_app. destruct x; [left|right]; apply in_map; apply IH; simpl in H; lia.
Qed.

Definition countb (b : list bool) : nat := length (filter (fun x => x) b).
Definition net_selects (n m : nat) (net : list (nat * nat)) : bool :=
  forallb (fun b => match bnetwork net b with
     | Ok b' => match nth_error b' m with Some x => Bool.eqb x (Nat.leb (S m) (countb b)) | None => false end
     | _ => false end) (all_bools n).

Lemma countb_below t p : countb (map (below t) p) = count (fun x => Qle_bool x t) p.
Proof.
  induction p as [|a p IH]; [reflexivity|]. rewrite count_cons. unfold countb in *. cbn [map filter].
  unfold below at 1. destruct (Qle_bool a t); simpl; rewrite IH; reflexivity.
Qed.

(** among samples strictly below v (if any) there is a largest one *)
Lemma exists_largest_below v l : count (fun x => Qltb x v) l <> 0%nat ->
  exists t, t < v /\ (count (fun x => Qltb x v) l <= count (fun x => Qle_bool x t) l)%nat.
Proof.
  intro H.
  assert (G : exists t, t < v /\ forall x, In x l -> x < v -> x <= t).
  { clear H. induction l as [|a l IH].
    - exists (v - 1). split; [lra|]. intros x [].
    - destruct IH as (t & Ht & Hl). destruct (Qlt_le_dec a v) as [Ha|Ha].
      + destruct (Qlt_le_dec t a) as [Hta|Hta].
        * exists a. split; [exact Ha|]. intros x [<-|Hx] Hv; [lra|]. specialize (Hl x Hx Hv). lra.
        * exists t. split; [exact Ht|]. intros x [<-|Hx] Hv; [lra|]. apply Hl; auto.
      + exists t. split; [exact Ht|]. intros x [<-|Hx] Hv; [lra|]. apply Hl; auto. }
  destruct G as (t & Ht & Hl). exists t. split; [exact Ht|].
  apply count_mono. intros x Hx Hv. apply Qltb_true in Hv. apply Qle_bool_true. apply Hl; auto.
Qed.

Lemma network_order_statistic n m net p : net_ok n net = true -> net_selects n m net = true ->
  length p = n -> (m < n)%nat ->
  exists p' v, run_network net p = Ok p' /\ vget p' m = Ok v /\ order_statistic p m v.
Proof.
  intros Hok Hsel Hl Hm. subst n. destruct (run_network_ok net p Hok) as (p' & E & P & B).
  destruct (nth_error_lt p' m) as [v Hv]; [rewrite (Permutation_length P); exact Hm|].
  exists p', v. split; [exact E|]. split; [apply vget_Ok; exact Hv|].
  assert (K : forall t, v <= t <-> (m < count (fun x => Qle_bool x t) p)%nat).
  { intro t. unfold net_selects in Hsel. rewrite forallb_forall in Hsel.
    specialize (Hsel (map (below t) p) (all_bools_complete _ _ (map_length _ _))).
    rewrite (B t), nth_error_map, Hv in Hsel. simpl in Hsel. apply Bool.eqb_prop in Hsel.
    rewrite countb_below in Hsel. unfold below in Hsel.
    destruct (Qle_bool_spec v t) as [G|G]; symmetry in Hsel.
    - split; auto. intros _. destruct (count (fun x => Qle_bool x t) p); [discriminate|].
      apply Nat.leb_le in Hsel. lia.
    - split; [contradiction|]. intro Hlt. exfalso. destruct (count (fun x => Qle_bool x t) p); [lia|].
      apply Nat.leb_gt in Hsel. lia. }
  split; [exists v; split; [|lra]; apply (Permutation_in _ P); eapply nth_error_In; eauto|].
  split; [|apply K; lra].
  destruct (le_lt_dec (count (fun x => Qltb x v) p) m) as [H|H]; [exact H|]. exfalso.
  destruct (exists_largest_below v p) as (t & Ht & Hc); [lia|].
  assert (v <= t) by (apply K; lia). lra.
Qed.

Lemma Opt3Find_spec p : length p = 3%nat -> exists v, Opt3Find p = Ok v /\ order_statistic p 1 v.
Proof. intro H. destruct (network_order_statistic 3 1 net3 p) as (p' & v & E & G & O); auto; try (vm_compute; reflexivity).
  exists v. unfold Opt3Find. rewrite E. split; auto. Qed.
Lemma Opt5Find_spec p : length p = 5%nat -> exists v, Opt5Find p = Ok v /\ order_statistic p 2 v.
Proof. intro H. destruct (network_order_statistic 5 2 net5 p) as (p' & v & E & G & O); auto; try (vm_compute; reflexivity); try lia.
  exists v. unfold Opt5Find. rewrite E. split; auto. Qed.
Lemma Opt7Find_spec p : length p = 7%nat -> exists v, Opt7Find p = Ok v /\ order_statistic p 3 v.
Proof. intro H. destruct (network_order_statistic 7 3 net7 p) as (p' & v & E & G & O); auto; try (vm_compute; reflexivity); try lia.
  exists v. unfold Opt7Find. rewrite E. split; auto. Qed.
Lemma Opt9Find_spec p : length p = 9%nat -> exists v, Opt9Find p = Ok v /\ order_statistic p 4 v.
Proof. intro H. destruct (network_order_statistic 9 4 net9 p) as (p' & v & E & G & O); auto; try (vm_compute; reflexivity); try lia.
  exists v. unfold Opt9Find. rewrite E. split; auto. Qed.

(** ** BeersFind *)
Lemma div2_cases n : (n = 2 * Nat.div2 n /\ Nat.odd n = false)%nat \/ (n = 2 * Nat.div2 n + 1 /\ Nat.odd n = true)%nat.
Proof.
  pose proof (Nat.div2_odd n) as H. destruct (Nat.odd n); simpl Nat.b2n in H; [right|left]; lia.
Qed.

Lemma BeersFind_spec v : v <> [] ->
  if Nat.odd (length v)
  then exists m, BeersFind v = Ok m /\ order_statistic v (Nat.div2 (length v)) m
  else exists lo hi, BeersFind v = Ok ((1#2) * (lo + hi)) /\
        order_statistic v (Nat.div2 (length v) - 1) lo /\ order_statistic v (Nat.div2 (length v)) hi.
Proof.
  intro Hne. unfold BeersFind.
  assert (Hlen : (0 < length v)%nat) by (destruct v; [contradiction|simpl; lia]).
  assert (HL : length (qsort v) = length v) by (apply Permutation_length, qsort_perm).
  assert (HS : forall k, (k < length v)%nat -> exists x, vget (qsort v) k = Ok x /\ order_statistic v k x).
  { intros k Hk. destruct (nth_error_lt (qsort v) k) as [x Hx]; [lia|]. exists x. split; [apply vget_Ok; exact Hx|].
    apply (order_statistic_perm (qsort v)); [apply qsort_perm|].
    apply increasing_order_statistic; [apply qsort_increasing|exact Hx]. }
  destruct (div2_cases (length v)) as [[E O]|[E O]]; rewrite O.
  - destruct (Nat.eqb_spec (2 * Nat.div2 (length v)) (length v)) as [K|K]; [|lia].
    destruct (HS (Nat.div2 (length v))) as (hi & Hhi & Ohi); [lia|].
    destruct (HS (Nat.div2 (length v) - 1)%nat) as (lo & Hlo & Olo); [lia|].
    exists lo, hi. destruct (Nat.div2 (length v)) as [|q]; [lia|].
    replace (S q - 1)%nat with q in * by lia. rewrite Hlo, Hhi. cbn [rbind]. auto.
  - destruct (Nat.eqb_spec (2 * Nat.div2 (length v)) (length v)) as [K|K]; [lia|].
    apply HS. lia.
Qed.

(** ** FastFind *)
Definition at_ (a : list Q) (p : Z) : Q := nth (Z.to_nat p) a 0.
Definition zlen (a : list Q) : Z := Z.of_nat (length a).

Lemma zget_at a i : (0 <= i < zlen a)%Z -> zget a i = Ok (at_ a i).
Proof.
  intro H. unfold zget, zlen in *. destruct (Z.ltb_spec i 0); [lia|]. apply vget_Ok. unfold at_.
  apply nth_error_nth'. lia.
Qed.

Lemma scan_up_spec fuel a x : forall i s, (0 <= i <= s)%Z -> (s < zlen a)%Z -> ~ at_ a s < x ->
  (s - i < Z.of_nat fuel)%Z ->
  exists i1, scan_up fuel a x i = Ok i1 /\ (i <= i1 <= s)%Z /\ x <= at_ a i1 /\
    forall p, (i <= p < i1)%Z -> at_ a p < x.
Proof.
  induction fuel as [|f IH]; intros i s Hi Hs Hx Hf; [lia|].
  cbn [scan_up]. rewrite zget_at by lia. cbn [rbind].
  destruct (Qltb_spec (at_ a i) x) as [H|H].
  - assert (i <> s) by (intro; subst; contradiction).
    destruct (IH (i + 1)%Z s) as (i1 & E & B & X & L); [lia|lia|exact Hx|lia|].
    exists i1. split; [exact E|]. split; [lia|]. split; [exact X|].
    intros p Hp. destruct (Z.eq_dec p i) as [->|]; [exact H|]. apply L. lia.
  - exists i. split; [reflexivity|]. split; [lia|]. split; [lra|]. intros; lia.
Qed.
Lemma scan_down_spec fuel a x : forall j s, (0 <= s <= j)%Z -> (j < zlen a)%Z -> ~ x < at_ a s ->
  (j - s < Z.of_nat fuel)%Z ->
  exists j1, scan_down fuel a x j = Ok j1 /\ (s <= j1 <= j)%Z /\ at_ a j1 <= x /\
    forall p, (j1 < p <= j)%Z -> x < at_ a p.
Proof.
  induction fuel as [|f IH]; intros j s Hj Hs Hx Hf; [lia|].
  cbn [scan_down]. rewrite zget_at by lia. cbn [rbind].
  destruct (Qltb_spec x (at_ a j)) as [H|H].
  - assert (j <> s) by (intro; subst; contradiction).
    destruct (IH (j - 1)%Z s) as (j1 & E & B & X & L); [lia|lia|exact Hx|lia|].
    exists j1. split; [exact E|]. split; [lia|]. split; [exact X|].
    intros p Hp. destruct (Z.eq_dec p j) as [->|]; [exact H|]. apply L. lia.
  - exists j. split; [reflexivity|]. split; [lia|]. split; [lra|]. intros; lia.
Qed.

Lemma swap_spec a i j : (0 <= i < zlen a)%Z -> (0 <= j < zlen a)%Z ->
  exists a1, swap a i j = Ok a1 /\ length a1 = length a /\ Permutation a1 a /\
    forall p, (0 <= p)%Z -> at_ a1 p = if (p =? j)%Z then at_ a i else if (p =? i)%Z then at_ a j else at_ a p.
Proof.
  intros Hi Hj. unfold swap. rewrite !zget_at by auto. cbn [rbind]. unfold zset, zlen in *.
  destruct (Z.ltb_spec i 0); [lia|]. destruct (Z.ltb_spec j 0); [lia|].
  destruct (vset_ok a (Z.to_nat i) (at_ a j)) as (a1 & E1 & L1 & _); [lia|]. rewrite E1. cbn [rbind].
  destruct (vset_ok a1 (Z.to_nat j) (at_ a i)) as (a2 & E2 & L2 & _); [lia|].
  exists a2. split; [exact E2|]. split; [lia|].
  assert (Ni : nth_error a (Z.to_nat i) = Some (at_ a i)) by (apply nth_error_nth'; lia).
  assert (Nj : nth_error a (Z.to_nat j) = Some (at_ a j)) by (apply nth_error_nth'; lia).
  destruct (swap_perm a a1 a2 _ _ _ _ Ni Nj E1 E2) as (P & _ & N). split; [exact P|].
  intros p Hp. unfold at_ at 1. specialize (N (Z.to_nat p)).
  destruct (Z.eqb_spec p j) as [->|Hpj].
  - rewrite Nat.eqb_refl in N. erewrite nth_error_nth by exact N. reflexivity.
  - destruct (Nat.eqb_spec (Z.to_nat p) (Z.to_nat j)); [lia|].
    destruct (Z.eqb_spec p i) as [->|Hpi].
    + rewrite Nat.eqb_refl in N. erewrite nth_error_nth by exact N. reflexivity.
    + destruct (Nat.eqb_spec (Z.to_nat p) (Z.to_nat i)); [lia|].
      destruct (le_lt_dec (length a) (Z.to_nat p)) as [G|G].
      * unfold at_. rewrite !nth_overflow by lia. reflexivity.
      * rewrite (nth_error_nth' a 0 G) in N. erewrite nth_error_nth by exact N. reflexivity.
Qed.

Lemma partition_spec fuel x l m : forall a i j,
  (0 <= l)%Z -> (m < zlen a)%Z -> (l <= i)%Z -> (j <= m)%Z -> (i <= j)%Z ->
  (forall p, (l <= p < i)%Z -> at_ a p <= x) -> (forall q, (j < q <= m)%Z -> x <= at_ a q) ->
  (exists p, (i <= p <= m)%Z /\ x <= at_ a p) -> (exists q, (l <= q <= j)%Z /\ at_ a q <= x) ->
  (j - i < Z.of_nat fuel)%Z ->
  exists a1 i1 j1, partition_loop fuel a x i j = Ok (a1, i1, j1) /\
    length a1 = length a /\ Permutation a1 a /\ (j1 < i1)%Z /\ (i <= i1 <= m + 1)%Z /\ (l - 1 <= j1 <= j)%Z /\
    (forall p, (l <= p < i1)%Z -> at_ a1 p <= x) /\ (forall q, (j1 < q <= m)%Z -> x <= at_ a1 q) /\
    (forall p, (0 <= p)%Z -> (p < l \/ m < p)%Z -> at_ a1 p = at_ a p) /\
    (forall P : Q -> Prop, (forall p, (l <= p <= m)%Z -> P (at_ a p)) -> forall p, (l <= p <= m)%Z -> P (at_ a1 p)) /\
    ((exists s, (i <= s <= j)%Z /\ at_ a s == x) -> (i < i1)%Z /\ (j1 < j)%Z).
Proof.
  induction fuel as [|f IH]; intros a i j Hl Hm Hli Hjm Hij Hlo Hhi [ps [Hps Xps]] [qs [Hqs Xqs]] Hf; [lia|].
  cbn [partition_loop].
  destruct (scan_up_spec (S (length a)) a x i ps) as (i1 & E1 & B1 & X1 & L1); [lia|lia|lra|unfold zlen in *; lia|].
  rewrite E1. cbn [rbind].
  destruct (scan_down_spec (S (length a)) a x j qs) as (j1 & E2 & B2 & X2 & L2); [lia|lia|lra|unfold zlen in *; lia|].
  rewrite E2. cbn [rbind].
  destruct (Z.leb_spec i1 j1) as [H|H].
  - destruct (swap_spec a i1 j1) as (a1 & E3 & Len & P & A); [unfold zlen in *; lia|unfold zlen in *; lia|].
    rewrite E3. cbn [rbind].
    assert (Lo : forall p, (l <= p < i1 + 1)%Z -> at_ a1 p <= x).
    { intros p Hp. rewrite A by lia. destruct (Z.eqb_spec p j1).
      - replace i1 with j1 by lia. exact X2.
      - destruct (Z.eqb_spec p i1); [lra|]. destruct (Z_lt_le_dec p i); [apply Hlo; lia|].
        apply Qlt_le_weak, L1. lia. }
    assert (Hi : forall q, (j1 - 1 < q <= m)%Z -> x <= at_ a1 q).
    { intros q Hq. rewrite A by lia. destruct (Z.eqb_spec q j1); [lra|].
      destruct (Z.eqb_spec q i1); [lia|]. destruct (Z_lt_le_dec j q); [apply Hhi; lia|].
      apply Qlt_le_weak, L2. lia. }
    assert (Out : forall p, (0 <= p)%Z -> (p < l \/ m < p)%Z -> at_ a1 p = at_ a p).
    { intros p Hp Ho. rewrite A by lia. destruct (Z.eqb_spec p j1); [lia|]. destruct (Z.eqb_spec p i1); [lia|]. reflexivity. }
    assert (Pr : forall P : Q -> Prop, (forall p, (l <= p <= m)%Z -> P (at_ a p)) -> forall p, (l <= p <= m)%Z -> P (at_ a1 p)).
    { intros R HR p Hp. rewrite A by lia. destruct (Z.eqb_spec p j1); [apply HR; lia|].
      destruct (Z.eqb_spec p i1); [apply HR; lia|]. apply HR; lia. }
    destruct (Z.leb_spec (i1 + 1) (j1 - 1)) as [G|G].
    + destruct (IH a1 (i1 + 1)%Z (j1 - 1)%Z) as (a2 & i2 & j2 & E & Len2 & P2 & C1 & C2 & C3 & C4 & C5 & C6 & C7 & C8);
        try lia; auto.
      * unfold zlen in *. lia.
      * exists j1. split; [lia|]. rewrite A by lia. rewrite Z.eqb_refl. exact X1.
      * exists i1. split; [lia|]. rewrite A by lia. destruct (Z.eqb_spec i1 j1); [lia|]. rewrite Z.eqb_refl. exact X2.
      * exists a2, i2, j2. split; [exact E|]. split; [lia|]. split; [rewrite P2; exact P|].
        split; [lia|]. split; [lia|]. split; [lia|]. split; [exact C4|]. split; [exact C5|].
        split; [intros p Hp Ho; rewrite C6 by auto; apply Out; auto|].
        split; [intros R HR; apply C7; apply Pr; exact HR|]. intros _. lia.
    + exists a1, (i1 + 1)%Z, (j1 - 1)%Z. split; [reflexivity|]. split; [exact Len|]. split; [exact P|].
      split; [lia|]. split; [lia|]. split; [lia|]. split; [exact Lo|]. split; [exact Hi|].
      split; [exact Out|]. split; [exact Pr|]. intros _. lia.
  - exists a, i1, j1. split; [reflexivity|]. split; [reflexivity|]. split; [reflexivity|].
    split; [lia|]. split; [lia|]. split; [lia|].
    split; [|split; [|split; [auto|split; [auto|]]]].
    + intros p Hp. destruct (Z_lt_le_dec p i); [apply Hlo; lia|]. apply Qlt_le_weak, L1. lia.
    + intros q Hq. destruct (Z_lt_le_dec j q); [apply Hhi; lia|]. apply Qlt_le_weak, L2. lia.
    + intros [s [Hs Xs]]. exfalso.
      assert (i1 <= s)%Z. { destruct (Z_lt_le_dec s i1); [|lia]. assert (at_ a s < x) by (apply L1; lia). lra. }
      assert (s <= j1)%Z. { destruct (Z_lt_le_dec j1 s); [|lia]. assert (x < at_ a s) by (apply L2; lia). lra. }
      lia.
Qed.

Lemma select_spec fuel k : forall a l m, (0 <= l)%Z -> (m < zlen a)%Z -> (l <= k <= m)%Z ->
  (forall p q, (0 <= p < l)%Z -> (l <= q < zlen a)%Z -> at_ a p <= at_ a q) ->
  (forall p q, (0 <= p <= m)%Z -> (m < q < zlen a)%Z -> at_ a p <= at_ a q) ->
  (m - l < Z.of_nat fuel)%Z ->
  exists a', select_loop fuel a k l m = Ok a' /\ length a' = length a /\ Permutation a' a /\
    (forall p, (0 <= p < k)%Z -> at_ a' p <= at_ a' k) /\ (forall q, (k < q < zlen a)%Z -> at_ a' k <= at_ a' q).
Proof.
  induction fuel as [|f IH]; intros a l m Hl Hm Hk I1 I2 Hf; [lia|].
  cbn [select_loop]. destruct (Z.ltb_spec l m) as [H|H].
  2:{ exists a. assert (l = k) by lia. assert (m = k) by lia. subst l m.
      split; [reflexivity|]. split; [reflexivity|]. split; [reflexivity|].
      split; [intros p Hp; apply I1; lia|intros q Hq; apply I2; lia]. }
  rewrite zget_at by lia. cbn [rbind].
  destruct (partition_spec (S (length a)) (at_ a k) l m a l m) as
    (a1 & i & j & E & Len & P & C1 & C2 & C3 & C4 & C5 & C6 & C7 & C8); try lia.
  { exists k. split; [lia|lra]. } { exists k. split; [lia|lra]. } { unfold zlen in *. lia. }
  rewrite E. cbn [rbind]. destruct C8 as [D1 D2]; [exists k; split; [lia|lra]|].
  set (x := at_ a k) in *.
  assert (Zl : zlen a1 = zlen a) by (unfold zlen; lia).
  assert (J1 : forall p q, (0 <= p < l)%Z -> (l <= q < zlen a)%Z -> at_ a1 p <= at_ a1 q).
  { intros p q Hp Hq. rewrite (C6 p) by lia. destruct (Z_le_gt_dec q m).
    - apply (C7 (fun y => at_ a p <= y)); [|lia]. intros q' Hq'. apply I1; lia.
    - rewrite (C6 q) by lia. apply I1; lia. }
  assert (J2 : forall p q, (0 <= p <= m)%Z -> (m < q < zlen a)%Z -> at_ a1 p <= at_ a1 q).
  { intros p q Hp Hq. rewrite (C6 q) by lia. destruct (Z_lt_le_dec p l).
    - rewrite (C6 p) by lia. apply I2; lia.
    - apply (C7 (fun y => y <= at_ a q)); [|lia]. intros p' Hp'. apply I2; lia. }
  (* everything left of i is <= everything right of j that is >= i, etc. *)
  assert (K : forall p q, (0 <= p < i)%Z -> (j < q < zlen a)%Z -> (p < q)%Z -> at_ a1 p <= at_ a1 q).
  { intros p q Hp Hq Hpq. destruct (Z_lt_le_dec p l).
    - apply J1; lia.
    - destruct (Z_le_gt_dec q m).
      + apply Qle_trans with x; [apply C4; lia|apply C5; lia].
      + apply J2; lia. }
  destruct (Z.ltb_spec j k) as [G1|G1]; destruct (Z.ltb_spec k i) as [G2|G2].
  - (* j < k < i *)
    assert (Eend : select_loop f a1 k i j = Ok a1).
    { destruct f; cbn [select_loop]; destruct (Z.ltb_spec i j); try lia; reflexivity. }
    rewrite Eend. exists a1. split; [reflexivity|]. split; [exact Len|]. split; [exact P|].
    split; [intros p Hp; apply K; lia|intros q Hq; apply K; lia].
  - (* i <= k : l := i *)
    destruct (IH a1 i m) as (a' & E' & Len' & P' & R1 & R2); try lia; auto.
    + intros p q Hp Hq. apply K; lia.
    + rewrite Zl. exact J2.
    + exists a'. split; [exact E'|]. split; [lia|]. split; [rewrite P'; exact P|]. rewrite Zl in R2. auto.
  - (* k <= j : m := j *)
    destruct (IH a1 l j) as (a' & E' & Len' & P' & R1 & R2); try lia; auto.
    + rewrite Zl. exact J1.
    + intros p q Hp Hq. apply K; lia.
    + exists a'. split; [exact E'|]. split; [lia|]. split; [rewrite P'; exact P|]. rewrite Zl in R2. auto.
  - lia.
Qed.

Definition fast_rank (n : nat) : nat := if Nat.odd n then Nat.div2 n else (Nat.div2 n - 1)%nat.

Lemma Zodd_nat n : Z.odd (Z.of_nat n) = Nat.odd n.
Proof.
  destruct (Nat.odd n) eqn:E.
  - apply Nat.odd_spec in E. apply Z.odd_spec. destruct E as [m ->]. exists (Z.of_nat m). lia.
  - rewrite <- Nat.negb_even in E. apply negb_false_iff in E. apply Nat.even_spec in E. destruct E as [m ->].
    rewrite <- Z.negb_even. apply negb_false_iff, Z.even_spec. exists (Z.of_nat m). lia.
Qed.

Lemma FastFind_spec v : v <> [] -> exists m, FastFind v = Ok m /\ order_statistic v (fast_rank (length v)) m.
Proof.
  intro Hne. assert (Hlen : (0 < length v)%nat) by (destruct v; [contradiction|simpl; lia]).
  unfold FastFind.
  assert (Hr : (fast_rank (length v) < length v)%nat).
  { unfold fast_rank. destruct (div2_cases (length v)) as [[E O]|[E O]]; rewrite O; lia. }
  assert (Hk : (if Z.odd (Z.of_nat (length v)) then Z.of_nat (length v) / 2 else Z.of_nat (length v) / 2 - 1)%Z
               = Z.of_nat (fast_rank (length v))).
  { rewrite Zodd_nat. unfold fast_rank. change 2%Z with (Z.of_nat 2). rewrite <- (Nat2Z.inj_div (length v) 2), <- Nat.div2_div.
    destruct (div2_cases (length v)) as [[E O]|[E O]]; rewrite O; lia. }
  rewrite Hk. set (k := Z.of_nat (fast_rank (length v))).
  destruct (select_spec (S (length v)) k v 0 (Z.of_nat (length v) - 1)) as (a & E & L & P & R1 & R2);
    try (unfold zlen, k in *; lia); try (intros; unfold zlen in *; lia).
  rewrite E. cbn [rbind]. unfold zlen in R2.
  assert (Zl : zlen a = Z.of_nat (length v)) by (unfold zlen; lia).
  rewrite zget_at by (rewrite Zl; unfold k; lia).
  exists (at_ a k). split; [reflexivity|].
  apply (order_statistic_perm a); [exact P|].
  apply order_statistic_positions.
  - unfold at_, k. rewrite Nat2Z.id. apply nth_error_nth'. lia.
  - intros i x Hi Hx. specialize (R1 (Z.of_nat i)). unfold at_ at 1 in R1. rewrite Nat2Z.id in R1.
    rewrite (nth_error_nth _ _ _ Hx) in R1. apply R1. unfold k. lia.
  - intros i x Hi Hx. specialize (R2 (Z.of_nat i)). unfold at_ at 2 in R2. rewrite Nat2Z.id in R2.
    rewrite (nth_error_nth _ _ _ Hx) in R2. apply R2. pose proof (nth_error_len _ _ _ Hx). unfold k. lia.
Qed.

(** ** Find *)
Lemma single_order_statistic x : order_statistic [x] 0 x.
Proof. apply order_statistic_positions; auto; intros i y Hi Hy; destruct i as [|[|i]]; simpl in *; try lia; discriminate. Qed.

(** what Find returns, by parity and size *)
Lemma Find_spec v : v <> [] ->
  exists m, Find v = Ok m /\
  (if Nat.odd (length v) then order_statistic v (Nat.div2 (length v)) m
   else if Nat.leb (length v) 1000
   then exists lo hi, m = (1#2) * (lo + hi) /\
        order_statistic v (Nat.div2 (length v) - 1) lo /\ order_statistic v (Nat.div2 (length v)) hi
   else order_statistic v (Nat.div2 (length v) - 1) m).
Proof.
  intro Hne. pose proof (BeersFind_spec v Hne) as HB. pose proof (FastFind_spec v Hne) as HF.
  assert (Gen : Find v = (if Nat.ltb MEDIAN_FAST_OR_BEERS_THRESHOLD (length v) then FastFind v else BeersFind v) ->
    exists m, Find v = Ok m /\
  (if Nat.odd (length v) then order_statistic v (Nat.div2 (length v)) m
   else if Nat.leb (length v) 1000
   then exists lo hi, m = (1#2) * (lo + hi) /\
        order_statistic v (Nat.div2 (length v) - 1) lo /\ order_statistic v (Nat.div2 (length v)) hi
   else order_statistic v (Nat.div2 (length v) - 1) m)).
  { intro E. rewrite E. unfold MEDIAN_FAST_OR_BEERS_THRESHOLD, fast_rank in *.
    destruct (Nat.ltb_spec 1000 (length v)) as [G|G]; destruct (Nat.odd (length v)) eqn:O.
    - exact HF.
    - destruct (Nat.leb_spec (length v) 1000); [lia|]. exact HF.
    - exact HB.
    - destruct (Nat.leb_spec (length v) 1000); [|lia]. destruct HB as (lo & hi & A & B & C).
      exists ((1#2) * (lo + hi)). split; [exact A|]. exists lo, hi. auto. }
  unfold Find in *.
  remember (length v) as n eqn:En. symmetry in En.
  destruct n as [|[|[|[|[|[|[|[|[|[|n]]]]]]]]]]; try (apply Gen; reflexivity).
  - destruct v; [contradiction|discriminate].
  - destruct v as [|x [|y t]]; try discriminate. exists x. split; [reflexivity|]. simpl. apply single_order_statistic.
  - apply (Opt3Find_spec v En).
  - apply (Opt5Find_spec v En).
  - apply (Opt7Find_spec v En).
  - apply (Opt9Find_spec v En).
Qed.

Lemma order_statistic_weak l k v : order_statistic l k v -> (length l <= 2 * k + 2)%nat -> (2 * k <= length l)%nat ->
  weak_median l v.
Proof.
  intros (_ & H1 & H2) Hlo Hhi. split; [lia|].
  pose proof (count_neg (fun x => Qltb x v) (fun x => Qle_bool v x) l) as E.
  rewrite <- E in Hhi |- * ; try lia; intro x; unfold Qltb; rewrite ?negb_involutive; reflexivity.
Qed.

Lemma Find_weak_median v m : Find v = Ok m -> weak_median v m.
Proof.
  intro H. destruct v as [|x0 v0] eqn:Ev; [discriminate|]. rewrite <- Ev in *.
  destruct (Find_spec v) as (m' & E & S); [subst; discriminate|]. rewrite H in E. inversion E; subst m'.
  destruct (div2_cases (length v)) as [[L O]|[L O]]; rewrite O in S.
  - assert (0 < length v)%nat by (subst; simpl; lia).
    destruct (Nat.leb (length v) 1000).
    + destruct S as (lo & hi & -> & S1 & S2).
      assert (lo <= hi) by (eapply order_statistic_le; eauto; lia).
      destruct (order_statistic_weak _ _ _ S1) as [W1 _]; try lia.
      destruct (order_statistic_weak _ _ _ S2) as [_ W2]; try lia.
      split.
      * eapply Nat.le_trans; [exact W1|]. apply Nat.mul_le_mono_l, count_mono.
        intros x _ Hx. apply Qle_bool_true in Hx. apply Qle_bool_true. lra.
      * eapply Nat.le_trans; [exact W2|]. apply Nat.mul_le_mono_l, count_mono.
        intros x _ Hx. apply Qle_bool_true in Hx. apply Qle_bool_true. lra.
    + eapply order_statistic_weak; eauto; lia.
  - eapply order_statistic_weak; eauto; lia.
Qed.

Lemma Find_perm v w a b : Permutation v w -> Find v = Ok a -> Find w = Ok b -> a == b.
Proof.
  intros P Ha Hb. destruct v as [|x0 v0] eqn:Ev; [discriminate|]. rewrite <- Ev in *.
  assert (Nv : v <> []) by (subst; discriminate).
  assert (Nw : w <> []) by (intro K; subst w; apply Permutation_sym, Permutation_nil in P; contradiction).
  destruct (Find_spec v Nv) as (m & E & S). destruct (Find_spec w Nw) as (m' & E' & S').
  rewrite Ha in E. rewrite Hb in E'. inversion E; inversion E'; subst m m'. clear E E'.
  rewrite <- (Permutation_length P) in S'.
  destruct (Nat.odd (length v)); [|destruct (Nat.leb (length v) 1000)].
  - apply (order_statistic_unique w (Nat.div2 (length v))); auto. eapply order_statistic_perm; eauto.
  - destruct S as (lo & hi & -> & S1 & S2). destruct S' as (lo' & hi' & -> & S1' & S2').
    assert (lo == lo') by (apply (order_statistic_unique w (Nat.div2 (length v) - 1)); auto; eapply order_statistic_perm; eauto).
    assert (hi == hi') by (apply (order_statistic_unique w (Nat.div2 (length v))); auto; eapply order_statistic_perm; eauto).
    lra.
  - apply (order_statistic_unique w (Nat.div2 (length v) - 1)); auto. eapply order_statistic_perm; eauto.
Qed.

(** above the threshold an even-sized sample does not get the mid-point of its two middle values *)
Lemma Find_even_large_refuted : exists v m lo hi, Find v = Ok m /\ Nat.even (length v) = true /\
  order_statistic v (Nat.div2 (length v) - 1) lo /\ order_statistic v (Nat.div2 (length v)) hi /\
  ~ m == (1#2) * (lo + hi).
Proof.
  set (v := repeat 0 501 ++ repeat 1 501).
  assert (L : length v = 1002%nat) by reflexivity.
  assert (I : increasing v).
  { intros i j x y Hij Hx Hy. unfold v in *.
    assert (R : forall k z, nth_error (repeat 0 501 ++ repeat 1 501) k = Some z -> z = (if Nat.ltb k 501 then 0 else 1)).
    { intros k z Hz. destruct (Nat.ltb_spec k 501) as [G|G].
      - rewrite nth_error_app1 in Hz by (rewrite repeat_length; exact G). apply nth_error_In, repeat_spec in Hz. exact Hz.
      - rewrite nth_error_app2 in Hz by (rewrite repeat_length; exact G). apply nth_error_In, repeat_spec in Hz. exact Hz. }
    rewrite (R i x Hx), (R j y Hy). destruct (Nat.ltb_spec i 501), (Nat.ltb_spec j 501); try lra. lia. }
  exists v, 0, 0, 1. split; [vm_compute; reflexivity|]. split; [vm_compute; reflexivity|].
  rewrite L. split; [|split; [|lra]]; apply increasing_order_statistic; auto; vm_compute; reflexivity.
Qed.

Lemma Find_empty_UB : Find [] = UB. Proof. reflexivity. Qed.

(** mean *)
Lemma qsum_acc l : forall a, fold_left Qplus l a == a + fold_left Qplus l 0.
Proof.
  induction l as [|x l IH]; intro a; simpl; [lra|]. rewrite IH. rewrite (IH (0 + x)). lra.
Qed.
Lemma qsum_cons x l : qsum (x :: l) == x + qsum l.
Proof. unfold qsum. simpl. rewrite qsum_acc. lra. Qed.
Lemma qsum_bounds l lo hi : (forall x, In x l -> lo <= x /\ x <= hi) ->
  lo * inject_Z (Z.of_nat (length l)) <= qsum l /\ qsum l <= hi * inject_Z (Z.of_nat (length l)).
Proof.
  induction l as [|a l IH]; intro H.
  - unfold qsum; simpl. change (inject_Z 0) with 0. lra.
  - destruct IH as [I1 I2]; [intros; apply H; simpl; auto|]. destruct (H a) as [A1 A2]; [simpl; auto|].
    rewrite qsum_cons. cbn [length]. rewrite Nat2Z.inj_succ. unfold Z.succ. rewrite inject_Z_plus.
    change (inject_Z 1) with 1. split; lra.
Qed.
Lemma MeanFind_bounds v lo hi : v <> [] -> (forall x, In x v -> lo <= x /\ x <= hi) ->
  exists m, MeanFind v = Ok m /\ lo <= m /\ m <= hi /\ m * inject_Z (Z.of_nat (length v)) == qsum v.
Proof.
  intros Hne H. unfold MeanFind. destruct v as [|a v0] eqn:Ev; [contradiction|]. rewrite <- Ev in *.
  assert (Hn : 0 < inject_Z (Z.of_nat (length v))) by (change 0 with (inject_Z 0); rewrite <- Zlt_Qlt; subst v; simpl; lia).
  eexists. split; [reflexivity|]. destruct (qsum_bounds v lo hi H) as [B1 B2].
  assert (E : qsum v / inject_Z (Z.of_nat (length v)) * inject_Z (Z.of_nat (length v)) == qsum v) by (field; lra).
  split; [|split; [|exact E]]; nra.
Qed.
