(** Proofs for C36. *)
From Verif Require Import Base RangeModel RangeSpec RangeProofs ZGridModel ZGridSpec.
Open Scope Q_scope.

Lemma insertWithDuplicates_eq {A} (dest : list A) pos src ndup :
  (ndup <= length src)%nat -> (pos + ndup <= length dest)%nat ->
  insertWithDuplicates dest pos src ndup = Ok (firstn pos dest ++ src ++ skipn (pos + ndup) dest).
Proof.
  intros H1 H2. unfold insertWithDuplicates.
  destruct (Nat.ltb_spec (length src) ndup); [lia|]. destruct (Nat.ltb_spec (length dest) pos); [lia|]. cbv zeta.
  set (n := (length src - ndup)%nat). unfold overwrite, insert_at.
  assert (Lf : length (firstn pos dest) = pos) by (rewrite firstn_length; lia).
  assert (Ls : length (firstn n src) = n) by (rewrite firstn_length; unfold n; lia).
  assert (Lk : length (skipn n src) = ndup) by (rewrite skipn_length; unfold n; lia).
  assert (Lz : length (skipn pos dest) = (length dest - pos)%nat) by (rewrite skipn_length; lia).
  rewrite Lk. destruct (Nat.leb_spec (pos + n + ndup) (length (firstn pos dest ++ firstn n src ++ skipn pos dest))) as [H3|H3].
  2:{ rewrite !app_length, Lf, Ls, Lz in H3. lia. }
  f_equal.
  replace (firstn (pos + n) (firstn pos dest ++ firstn n src ++ skipn pos dest)) with (firstn pos dest ++ firstn n src).
  2:{ rewrite app_assoc. rewrite firstn_app. rewrite app_length, Lf, Ls, Nat.sub_diag. rewrite firstn_O, app_nil_r.
      symmetry. apply firstn_all2. rewrite app_length, Lf, Ls. lia. }
  replace (skipn (pos + n + ndup) (firstn pos dest ++ firstn n src ++ skipn pos dest)) with (skipn (pos + ndup) dest).
  2:{ rewrite app_assoc. rewrite skipn_app. rewrite app_length, Lf, Ls.
      rewrite (skipn_all2 (firstn pos dest ++ firstn n src)) by (rewrite app_length; lia). simpl.
      replace (pos + n + ndup - (pos + n))%nat with ndup by lia.
      clear. revert dest. induction pos as [|p IH]; intro dest; [reflexivity|]. destruct dest; [simpl; destruct ndup; reflexivity|apply IH]. }
  rewrite <- !app_assoc. f_equal. rewrite app_assoc. rewrite firstn_skipn. reflexivity.
Qed.

Lemma repeat_split {A} (v : A) n m : repeat v (n + m) = repeat v n ++ repeat v m.
Proof. induction n; simpl; congruence. Qed.

Lemma insertWithDuplicates_value_eq {A} (dest : list A) pos count v ndup :
  (ndup <= count)%nat -> (pos + ndup <= length dest)%nat ->
  insertWithDuplicates_value dest pos count v ndup = Ok (firstn pos dest ++ repeat v count ++ skipn (pos + ndup) dest).
Proof.
  intros H1 H2. pose proof (insertWithDuplicates_eq dest pos (repeat v count) ndup) as H. rewrite repeat_length in H.
  specialize (H H1 H2). rewrite <- H. unfold insertWithDuplicates_value, insertWithDuplicates. rewrite repeat_length.
  destruct (Nat.ltb_spec (length dest) pos); [lia|]. destruct (Nat.ltb_spec count ndup); [lia|]. cbv zeta.
  set (n := (count - ndup)%nat). assert (E : count = (n + (count - n))%nat) by (unfold n; lia).
  replace (firstn n (repeat v count)) with (repeat v n).
  2:{ rewrite E at 1. rewrite repeat_split, firstn_app, repeat_length, Nat.sub_diag. simpl. rewrite app_nil_r.
      symmetry. apply firstn_all2. rewrite repeat_length. lia. }
  replace (skipn n (repeat v count)) with (repeat v (count - n)).
  2:{ rewrite E at 2. rewrite repeat_split, skipn_app, repeat_length, Nat.sub_diag.
      rewrite skipn_all2 by (rewrite repeat_length; lia). reflexivity. }
  reflexivity.
Qed.

Lemma si_app l1 l2 : strictly_increasing l1 -> strictly_increasing l2 -> (forall a b, In a l1 -> In b l2 -> a < b) ->
  strictly_increasing (l1 ++ l2).
Proof.
  induction l1 as [|h t IH]; intros H1 H2 H; [exact H2|]. simpl. apply strictly_increasing_cons.
  - intros x Hx. apply in_app_iff in Hx. destruct Hx as [Hx|Hx].
    + apply (strictly_increasing_head h t x H1 Hx).
    + apply H; [left; reflexivity|exact Hx].
  - apply IH; [apply (strictly_increasing_tail _ _ H1)|exact H2|]. intros a b Ha Hb. apply H; [right|]; auto.
Qed.
Lemma nth_firstn {A} (l : list A) n k x : nth_error (firstn n l) k = Some x <-> (k < n)%nat /\ nth_error l k = Some x.
Proof.
  revert n k. induction l as [|h t IH]; intros n k.
  - rewrite firstn_nil. destruct k; split; [discriminate|intros [_ H]; discriminate|discriminate|intros [_ H]; discriminate].
  - destruct n as [|n]; [simpl; destruct k; split; [discriminate|lia|discriminate|lia]|]. destruct k as [|k]; simpl.
    + split; [intro H; split; [lia|exact H]|tauto].
    + rewrite IH. split; intros [A1 A2]; split; auto; lia.
Qed.
Lemma nth_skip {A} (l : list A) n k : nth_error (skipn n l) k = nth_error l (n + k).
Proof. revert l. induction n as [|n IH]; intro l; [reflexivity|]. destruct l; [simpl; destruct k; reflexivity|]. apply IH. Qed.

Lemma si_firstn l n : strictly_increasing l -> strictly_increasing (firstn n l).
Proof. intros H i j a b Hij Ha Hb. apply nth_firstn in Ha, Hb. destruct Ha, Hb. apply (H i j a b); auto. Qed.
Lemma si_skipn l n : strictly_increasing l -> strictly_increasing (skipn n l).
Proof. intros H i j a b Hij Ha Hb. rewrite nth_skip in Ha, Hb. apply (H (n + i)%nat (n + j)%nat a b); auto. lia. Qed.

Lemma set_front_nth {A} (l : list A) v k : nth_error (set_front l v) k =
  if Nat.eqb k 0 then (match l with [] => None | _ => Some v end) else nth_error l k.
Proof. destruct l as [|h t]; destruct k; reflexivity. Qed.
Lemma set_front_length {A} (l : list A) v : length (set_front l v) = length l.
Proof. destruct l; reflexivity. Qed.
Lemma set_back_length {A} (l : list A) v : length (set_back l v) = length l.
Proof.
  destruct l as [|h t]; [reflexivity|]. unfold set_back. rewrite app_length. simpl length at 2.
  assert (H : h :: t <> []) by discriminate. rewrite (app_removelast_last v H) at 2. rewrite app_length. reflexivity.
Qed.
Lemma set_back_nth {A} (l : list A) v k : nth_error (set_back l v) k =
  if Nat.eqb (S k) (length l) then Some v else nth_error l k.
Proof.
  destruct l as [|h t]; [destruct k; reflexivity|]. unfold set_back.
  assert (H : h :: t <> []) by discriminate. pose proof (app_removelast_last v H) as E.
  assert (L : length (h :: t) = S (length (removelast (h :: t)))) by (rewrite E at 1; rewrite app_length; simpl; lia).
  rewrite L. destruct (Nat.eqb_spec (S k) (S (length (removelast (h :: t))))) as [K|K].
  - apply Nat.succ_inj in K. rewrite nth_error_app2 by lia. replace (k - length (removelast (h :: t)))%nat with 0%nat by lia. reflexivity.
  - destruct (Nat.lt_ge_cases k (length (removelast (h :: t)))) as [K'|K'].
    + rewrite nth_error_app1 by exact K'. rewrite E at 2. rewrite nth_error_app1 by exact K'. reflexivity.
    + assert (nth_error (h :: t) k = None) as -> by (apply nth_error_None; lia).
      apply nth_error_None. rewrite app_length. change (length [v]) with 1%nat. lia.
Qed.

Theorem insertSubgrid_spec sub z : insertable sub z ->
  exists imin ndup sub' z', insertSubgrid sub z = Ok (imin, ndup, sub', z') /\
    inserted sub z sub' /\ strictly_increasing sub' /\
    (forall k x, nth_error z k = Some x -> (replaced sub x <-> (imin <= k < imin + ndup)%nat)) /\
    (1 <= ndup)%nat /\ (ndup <= length sub)%nat /\ (imin + ndup <= length z)%nat /\
    z' = firstn imin z ++ sub' ++ skipn (imin + ndup) z /\ strictly_increasing z' /\
    (forall x, In x z' <-> In x sub' \/ (In x z /\ ~ replaced sub x)).
Proof.
  intros (Hs & Hz & Hz2 & (x0 & Hx0 & Hr0) & Hdense & Hfr & Hbk).
  pose proof Hr0 as (sf & sb & Hsf & Hsb & R1 & R2).
  assert (Hns : sub <> []) by (destruct sub; [discriminate|discriminate]).
  assert (Hnz : z <> []) by (destruct z; [destruct Hx0|discriminate]).
  assert (Hlz : (0 < length z)%nat) by (destruct z; [contradiction|simpl; lia]).
  assert (Hls : (0 < length sub)%nat) by (apply (nth_error_len _ _ _ Hsf)).
  destruct (front_ok sub Hns) as (sf' & Ef & Hsf'). assert (sf' = sf) by congruence. subst sf'.
  destruct (back_ok sub Hns) as (sb' & Eb & Hsb'). assert (sb' = sb) by congruence. subst sb'.
  destruct (front_ok z Hnz) as (zf & Ezf & Hzf). destruct (back_ok z Hnz) as (zb & Ezb & Hzb).
  assert (Hzall : forall x, In x z -> zf <= x /\ x <= zb).
  { pose proof (strictly_increasing_increasing _ Hz) as Hi. intros x Hx. apply In_nth_error in Hx. destruct Hx as [k Hk].
    pose proof (nth_error_len _ _ _ Hk) as Hkl. split.
    - destruct (Nat.eq_dec k 0) as [->|]; [assert (x = zf) by congruence; subst; lra|].
      assert (zf < x) by (apply (Hz 0%nat k); auto; lia). lra.
    - destruct (Nat.eq_dec k (length z - 1)) as [->|]; [assert (x = zb) by congruence; subst; lra|].
      assert (x < zb) by (apply (Hz k (length z - 1)%nat); auto; lia). lra. }
  destruct (Hzall x0 Hx0) as [Z1 Z2].
  assert (Hsfb : sf <= sb).
  { destruct (Nat.eq_dec (length sub - 1) 0) as [E|E]; [rewrite E in Hsb; assert (sf = sb) by congruence; subst; lra|].
    assert (sf < sb) by (apply (Hs 0%nat (length sub - 1)%nat); auto; lia). lra. }
  unfold insertSubgrid. rewrite Ef, Eb, Ezf, Ezb. cbn [rbind]. fold eps.
  set (re := mkRange (Qmaxb (sf - eps) zf) (Qminb (sb + eps) zb)).
  assert (HI : IntersectWith (mkRange (sf - eps) (sb + eps)) (mkRange zf zb) = (true, re)).
  { unfold IntersectWith, Intersect. cbn [rbeg rend].
    assert (HasIntersection (mkRange (sf - eps) (sb + eps)) (mkRange zf zb) = true) as ->.
    { unfold HasIntersection. cbn [rbeg rend]. apply Qle_bool_iff. apply Qmaxb_le_iff. split; apply Qminb_ge_iff; split; lra. }
    reflexivity. }
  rewrite HI.
  assert (Hrep : forall x, In x z -> (inside re x <-> replaced sub x)).
  { intros x Hx. destruct (Hzall x Hx). unfold inside, re. cbn [rbeg rend]. rewrite Qmaxb_le_iff, Qminb_ge_iff. split.
    - intros [[A B] [C D]]. exists sf, sb. auto.
    - intros (a & b & A & B & C & D). assert (a = sf) by congruence. assert (b = sb) by congruence. subst. auto. }
  pose proof (getClosed_spec re z Hz) as HC.
  destruct (getClosedIntervalIndices re z) as [[imin imax]|er|] eqn:EC.
  2:{ exfalso. assert (Hwf : well_formed re) by (destruct (Hrep x0 Hx0) as [_ H]; specialize (H Hr0); unfold inside in H; unfold well_formed; lra).
      destruct er; try contradiction; destruct HC as [_ HC]; apply (HC Hwf x0 Hx0); apply Hrep; auto. }
  2:{ destruct HC. }
  cbn [rbind]. destruct HC as [Hidx HC].
  set (ndup := (imax - imin + 1)%nat).
  set (sub1 := if Qeq_bool (rbeg re) zf then set_front sub zf else sub).
  set (sub2 := if Qeq_bool (rend re) zb then set_back sub1 zb else sub1).
  assert (L1 : length sub1 = length sub) by (unfold sub1; destruct (Qeq_bool (rbeg re) zf); [apply set_front_length|reflexivity]).
  assert (L2 : length sub2 = length sub) by (unfold sub2; destruct (Qeq_bool (rend re) zb); [rewrite set_back_length; exact L1|exact L1]).
  assert (Cf : if Qeq_bool (rbeg re) zf then sf - eps <= zf else zf < sf - eps).
  { unfold re. cbn [rbeg]. unfold Qmaxb. destruct (Qltb_spec (sf - eps) zf) as [A|A].
    - destruct (Qeq_bool_spec zf zf); [lra|exfalso; apply n; reflexivity].
    - destruct (Qeq_bool_spec (sf - eps) zf); lra. }
  assert (Cb : if Qeq_bool (rend re) zb then zb <= sb + eps else sb + eps < zb).
  { unfold re. cbn [rend]. unfold Qminb. destruct (Qltb_spec zb (sb + eps)) as [A|A].
    - destruct (Qeq_bool_spec zb zb); [lra|exfalso; apply n; reflexivity].
    - destruct (Qeq_bool_spec (sb + eps) zb); lra. }
  assert (Hmin : exists xm, nth_error z imin = Some xm) by (apply nth_error_lt; lia). destruct Hmin as [xm Hxm].
  assert (Hmax : exists xM, nth_error z imax = Some xM) by (apply nth_error_lt; lia). destruct Hmax as [xM HxM].
  assert (Rm : replaced sub xm) by (apply (Hrep xm (nth_error_In _ _ Hxm)); apply (HC imin xm Hxm); lia).
  assert (RM : replaced sub xM) by (apply (Hrep xM (nth_error_In _ _ HxM)); apply (HC imax xM HxM); lia).
  assert (Hnd : (ndup <= length sub)%nat) by (pose proof (Hdense imin imax xm xM Hxm HxM Rm RM); unfold ndup; lia).
  assert (Hins : inserted sub z sub2).
  { split; [exact L2|]. intros k x' Hk. pose proof (nth_error_len _ _ _ Hk) as Hkl. rewrite L2 in Hkl.
    destruct (nth_error_lt sub k Hkl) as (x & Hx). exists x. split; [exact Hx|].
    unfold sub2 in Hk. destruct (Qeq_bool (rend re) zb) eqn:E2.
    - rewrite set_back_nth, L1 in Hk. destruct (Nat.eqb_spec (S k) (length sub)) as [K|K].
      + injection Hk as <-. right; right. assert (k = (length sub - 1)%nat) by lia. subst k.
        split; [reflexivity|]. split; [exact Hzb|]. assert (x = sb) by congruence. subst. exact Cb.
      + unfold sub1 in Hk. destruct (Qeq_bool (rbeg re) zf) eqn:E1.
        * rewrite set_front_nth in Hk. destruct (Nat.eqb_spec k 0) as [K0|K0].
          -- destruct sub as [|s0 sr]; [contradiction|]. injection Hk as <-. right; left. subst k. split; [reflexivity|]. split; [exact Hzf|].
             assert (x = sf) by congruence. subst. exact Cf.
          -- left. split; [congruence|]. split; [intro; lia|intro; lia].
        * left. split; [congruence|]. split; [intros -> zf' Hzf'|intro; lia]. assert (x = sf) by congruence. assert (zf' = zf) by congruence. subst. exact Cf.
    - unfold sub1 in Hk. destruct (Qeq_bool (rbeg re) zf) eqn:E1.
      + rewrite set_front_nth in Hk. destruct (Nat.eqb_spec k 0) as [K0|K0].
        * destruct sub as [|s0 sr]; [contradiction|]. injection Hk as <-. right; left. subst k. split; [reflexivity|]. split; [exact Hzf|].
          assert (x = sf) by congruence. subst. exact Cf.
        * left. split; [congruence|]. split; [intro; lia|intros -> zb' Hzb'].
          assert (x = sb) by congruence. assert (zb' = zb) by congruence. subst. exact Cb.
      + left. split; [congruence|]. split.
        * intros -> zf' Hzf'. assert (x = sf) by congruence. assert (zf' = zf) by congruence. subst. exact Cf.
        * intros -> zb' Hzb'. assert (x = sb) by congruence. assert (zb' = zb) by congruence. subst. exact Cb. }
  (* position of the inserted samples relative to the ends of the zone *)
  assert (Hpos : forall k x', nth_error sub2 k = Some x' ->
     (k = 0%nat -> x' = sf \/ (x' = zf /\ sf - eps <= zf) \/ (length sub = 1%nat /\ x' = zb /\ zb <= sb + eps)) /\
     (k = (length sub - 1)%nat -> x' = sb \/ (x' = zb /\ zb <= sb + eps) \/ (length sub = 1%nat /\ x' = zf /\ sf - eps <= zf)) /\
     ((0 < k < length sub - 1)%nat -> nth_error sub k = Some x')).
  { intros k x' Hk. destruct Hins as [_ Hins]. destruct (Hins k x' Hk) as (x & Hx & HH).
    pose proof (nth_error_len _ _ _ Hx) as Hkl. split; [|split].
    - intros ->. assert (x = sf) by congruence. subst x. destruct HH as [(-> & _)|[(_ & A & B)|(A & B & C)]].
      + left; reflexivity.
      + right; left. assert (x' = zf) by congruence. subst. auto.
      + right; right. assert (length sub = 1)%nat by lia. split; auto. assert (x' = zb) by congruence. subst.
        split; auto. assert (sf = sb) by (rewrite <- A in Hsb; congruence). subst. exact C.
    - intros ->. assert (x = sb) by congruence. subst x. destruct HH as [(-> & _)|[(A & B & C)|(_ & A & B)]].
      + left; reflexivity.
      + right; right. assert (length sub = 1)%nat by lia. split; auto. assert (x' = zf) by congruence. subst.
        split; auto. assert (sf = sb) by (rewrite A in Hsb; congruence). subst. exact C.
      + right; left. assert (x' = zb) by congruence. subst. auto.
    - intro Hkk. destruct HH as [(-> & _)|[(A & _)|(A & _)]]; [exact Hx|lia|lia]. }
  assert (Hone : length sub = 1%nat -> imin = imax) by (intro; unfold ndup in Hnd; lia).
  (* the inserted sub-grid is strictly increasing *)
  assert (Hsi : strictly_increasing sub2).
  { intros i j a b Hij Ha Hb. pose proof (nth_error_len _ _ _ Hb) as Hjl. rewrite L2 in Hjl.
    destruct Hins as [_ Hins]. destruct (Hins i a Ha) as (xa & Hxa & HA). destruct (Hins j b Hb) as (xb & Hxb & HB).
    assert (Hab : xa < xb) by (apply (Hs i j); auto).
    assert (Hb' : b = xb \/ (j = (length sub - 1)%nat /\ b = zb)).
    { destruct HB as [(A & _)|[(A & _)|(A & B & _)]]; [left; exact A|lia|right; split; [exact A|congruence]]. }
    assert (Ha' : a = xa \/ (i = 0%nat /\ a = zf)).
    { destruct HA as [(A & _)|[(A & B & _)|(A & _)]]; [left; exact A|right; split; [exact A|congruence]|lia]. }
    destruct Ha' as [->|[-> ->]]; destruct Hb' as [->|[-> ->]].
    - exact Hab.
    - apply (Hbk i xa zb); auto.
    - apply (Hfr j xb zf); auto; lia.
    - apply (Hz 0%nat (length z - 1)%nat); auto. lia. }
  assert (Hlow : forall x', In x' sub2 -> forall a, In a (firstn imin z) -> a < x').
  { intros x' Hx' a Ha. apply In_nth_error in Ha. destruct Ha as [i Hi]. apply nth_firstn in Hi. destruct Hi as [Hi1 Hi].
    assert (Hna : ~ replaced sub a) by (intro X; apply (Hrep a (nth_error_In _ _ Hi)) in X; apply (HC i a Hi) in X; lia).
    assert (Haf : a < sf - eps).
    { assert (a < xm) by (apply (Hz i imin); auto). destruct (Qlt_le_dec a (sf - eps)); auto. exfalso. apply Hna.
      exists sf, sb. split; [exact Hsf|]. split; [exact Hsb|]. split; [exact q|].
      destruct Rm as (u & v & U1 & U2 & U3 & U4). assert (v = sb) by congruence. subst. lra. }
    assert (Hzfa : zf <= a) by (apply Hzall; apply (nth_error_In _ _ Hi)).
    assert (E0 : 0 <= eps) by (unfold eps; lra).
    apply In_nth_error in Hx'. destruct Hx' as [k Hk].
    destruct (nth_error_lt sub2 0%nat ltac:(lia)) as (y0 & Hy0).
    assert (Hy : a < y0).
    { destruct Hins as [_ Hins]. destruct (Hins 0%nat y0 Hy0) as (x & Hx & HH). assert (x = sf) by congruence. subst x.
      destruct HH as [(-> & _)|[(_ & A & B)|(_ & A & B)]].
      - lra.
      - assert (y0 = zf) by congruence. subst. lra.
      - assert (y0 = zb) by congruence. subst y0. assert (xm <= zb) by (apply Hzall; apply (nth_error_In _ _ Hxm)).
        assert (a < xm) by (apply (Hz i imin); auto). lra. }
    destruct (Nat.eq_dec k 0) as [->|K]; [assert (x' = y0) by congruence; subst; exact Hy|].
    assert (y0 < x') by (apply (Hsi 0%nat k); auto; lia). lra. }
  assert (Hhigh : forall x', In x' sub2 -> forall a, In a (skipn (imin + ndup) z) -> x' < a).
  { intros x' Hx' a Ha. apply In_nth_error in Ha. destruct Ha as [i Hi]. rewrite nth_skip in Hi.
    assert (Hna : ~ replaced sub a) by (intro X; apply (Hrep a (nth_error_In _ _ Hi)) in X; apply (HC _ a Hi) in X; unfold ndup in X; lia).
    assert (HMa : xM < a) by (apply (Hz imax (imin + ndup + i)%nat); auto; unfold ndup; lia).
    assert (Haf : sb + eps < a).
    { destruct (Qlt_le_dec (sb + eps) a); auto. exfalso. apply Hna.
      exists sf, sb. split; [exact Hsf|]. split; [exact Hsb|]. split; [|exact q].
      destruct RM as (u & v & U1 & U2 & U3 & U4). assert (u = sf) by congruence. subst. lra. }
    assert (Hzba : a <= zb) by (apply Hzall; apply (nth_error_In _ _ Hi)).
    assert (E0 : 0 <= eps) by (unfold eps; lra).
    apply In_nth_error in Hx'. destruct Hx' as [k Hk]. pose proof (nth_error_len _ _ _ Hk) as Hkl.
    destruct (nth_error_lt sub2 (length sub - 1)%nat ltac:(lia)) as (y0 & Hy0).
    assert (Hy : y0 < a).
    { destruct Hins as [_ Hins]. destruct (Hins _ y0 Hy0) as (x & Hx & HH). assert (x = sb) by congruence. subst x.
      destruct HH as [(-> & _)|[(_ & A & B)|(_ & A & B)]].
      - lra.
      - assert (y0 = zf) by congruence. subst y0. assert (zf <= xM) by (apply Hzall; apply (nth_error_In _ _ HxM)). lra.
      - assert (y0 = zb) by congruence. subst. lra. }
    destruct (Nat.eq_dec k (length sub - 1)) as [->|K]; [assert (x' = y0) by congruence; subst; exact Hy|].
    assert (x' < y0) by (apply (Hsi k (length sub - 1)%nat); auto; lia). lra. }
  rewrite (insertWithDuplicates_eq z imin sub2 ndup) by (unfold ndup in *; lia). cbn [rbind].
  exists imin, ndup, sub2, (firstn imin z ++ sub2 ++ skipn (imin + ndup) z).
  assert (Hzone : forall k x, nth_error z k = Some x -> (replaced sub x <-> (imin <= k < imin + ndup)%nat)).
  { intros k x Hk. rewrite <- (Hrep x (nth_error_In _ _ Hk)), (HC k x Hk). unfold ndup. lia. }
  split; [reflexivity|]. split; [exact Hins|]. split; [exact Hsi|]. split; [exact Hzone|].
  split; [unfold ndup; lia|]. split; [exact Hnd|]. split; [unfold ndup; lia|]. split; [reflexivity|]. split.
  - apply si_app; [apply si_firstn; exact Hz| |].
    + apply si_app; [exact Hsi|apply si_skipn; exact Hz|]. intros a b Ha Hb. apply Hhigh; auto.
    + intros a b Ha Hb. apply in_app_iff in Hb. destruct Hb as [Hb|Hb]; [apply Hlow; auto|].
      apply In_nth_error in Ha. destruct Ha as [i Hi]. apply nth_firstn in Hi. destruct Hi as [Hi1 Hi].
      apply In_nth_error in Hb. destruct Hb as [j Hj]. rewrite nth_skip in Hj. apply (Hz i (imin + ndup + j)%nat); auto. unfold ndup. lia.
  - intro x. rewrite !in_app_iff. split.
    + intros [H|[H|H]]; [right|left; exact H|right].
      * apply In_nth_error in H. destruct H as [i Hi]. apply nth_firstn in Hi. destruct Hi as [Hi1 Hi].
        split; [apply (nth_error_In _ _ Hi)|]. intro X. apply (Hzone i x Hi) in X. lia.
      * apply In_nth_error in H. destruct H as [i Hi]. rewrite nth_skip in Hi.
        split; [apply (nth_error_In _ _ Hi)|]. intro X. apply (Hzone _ x Hi) in X. lia.
    + intros [H|[H Hn]]; [right; left; exact H|]. apply In_nth_error in H. destruct H as [i Hi].
      destruct (Nat.lt_ge_cases i imin) as [I|I].
      * left. apply (nth_error_In _ i). apply nth_firstn. auto.
      * destruct (Nat.lt_ge_cases i (imin + ndup)) as [J|J].
        -- exfalso. apply Hn. apply (Hzone i x Hi). lia.
        -- right; right. apply (nth_error_In _ (i - (imin + ndup))%nat). rewrite nth_skip.
           replace (imin + ndup + (i - (imin + ndup)))%nat with i by lia. exact Hi.
Qed.

Lemma combine_app {A B} (a b : list A) (c d : list B) : length a = length c -> combine (a ++ b) (c ++ d) = combine a c ++ combine b d.
Proof. revert c. induction a as [|x a IH]; intros [|y c] H; simpl in *; try discriminate; auto. f_equal. apply IH. lia. Qed.
Lemma in_combine_nth {A B} (l : list A) (m : list B) x v :
  In (x, v) (combine l m) <-> exists k, nth_error l k = Some x /\ nth_error m k = Some v.
Proof.
  revert m. induction l as [|a l IH]; intro m.
  - simpl. split; [intros []|]. intros (k & H & _). destruct k; discriminate.
  - destruct m as [|b m].
    + simpl. split; [intros []|]. intros (k & _ & H). destruct k; discriminate.
    + simpl. rewrite IH. split.
      * intros [H|(k & H1 & H2)]; [injection H as <- <-; exists 0%nat; auto|exists (S k); auto].
      * intros (k & H1 & H2). destruct k as [|k]; simpl in *; [left; congruence|right; exists k; auto].
Qed.
Lemma combine_repeat {A B} (l : list A) (v : B) x w : In (x, w) (combine l (repeat v (length l))) <-> In x l /\ w = v.
Proof.
  induction l as [|a l IH]; simpl; [tauto|]. rewrite IH. split.
  - intros [H|[H1 H2]]; [injection H as <- <-; auto|auto].
  - intros [[->|H1] ->]; auto.
Qed.

(** one insertion and the companion array *)
Theorem companion_spec {A} (dflt : A) sub z (c : list A) : insertable sub z -> length c = length z ->
  exists sub' z' c', update_results dflt [sub] z c = Ok (z', c') /\ inserted sub z sub' /\
    strictly_increasing z' /\ length c' = length z' /\
    forall x v, In (x, v) (combine z' c') <-> (In x sub' /\ v = dflt) \/ (In (x, v) (combine z c) /\ ~ replaced sub x).
Proof.
  intros Hi HL. destruct (insertSubgrid_spec sub z Hi) as (imin & ndup & sub' & z' & HE & Hins & Hsi & Hzone & H1 & H2 & H3 & Hz' & Hsz & _).
  pose proof (proj1 Hins) as Ls.
  exists sub', z', (firstn imin c ++ repeat dflt (length sub') ++ skipn (imin + ndup) c).
  cbn [update_results]. rewrite HE. cbn [rbind]. rewrite insertWithDuplicates_value_eq by lia. cbn [rbind].
  assert (Lc : length (firstn imin z) = length (firstn imin c)) by (rewrite !firstn_length; lia).
  split; [reflexivity|]. split; [exact Hins|]. split; [exact Hsz|]. split.
  - rewrite Hz'. rewrite !app_length, Lc, repeat_length, !skipn_length. lia.
  - intros x v. rewrite Hz', combine_app by exact Lc. rewrite combine_app by (rewrite repeat_length; reflexivity).
    rewrite !in_app_iff, combine_repeat. rewrite !in_combine_nth. split.
    + intros [(k & K1 & K2)|[H|(k & K1 & K2)]].
      * apply nth_firstn in K1, K2. destruct K1 as [K0 K1]. right. split; [exists k; tauto|]. intro X. apply (Hzone k x K1) in X. lia.
      * left. exact H.
      * rewrite nth_skip in K1. rewrite nth_skip in K2. right. split; [exists (imin + ndup + k)%nat; auto|]. intro X. apply (Hzone _ x K1) in X. lia.
    + intros [H|[(k & K1 & K2) Hn]]; [right; left; exact H|].
      destruct (Nat.lt_ge_cases k imin) as [I|I].
      * left. exists k. rewrite !nth_firstn. auto.
      * destruct (Nat.lt_ge_cases k (imin + ndup)) as [J|J]; [exfalso; apply Hn; apply (Hzone k x K1); lia|].
        right; right. exists (k - (imin + ndup))%nat. rewrite !nth_skip. replace (imin + ndup + (k - (imin + ndup)))%nat with k by lia. auto.
Qed.

(** any number of insertions, each insertable in the grid reached so far *)
Fixpoint insertable_all (subs : list (list Q)) (z : list Q) : Prop :=
  match subs with
  | [] => True
  | s :: r => insertable s z /\ forall i n s' z', insertSubgrid s z = Ok (i, n, s', z') -> insertable_all r z'
  end.

Theorem update_all_spec {A} (dflt : A) : forall subs z (c : list A), insertable_all subs z -> strictly_increasing z -> length c = length z ->
  exists z' c', update_results dflt subs z c = Ok (z', c') /\ insert_all subs z = Ok z' /\ strictly_increasing z' /\ length c' = length z' /\
    (forall x v, In (x, v) (combine z' c') -> v = dflt \/ In (x, v) (combine z c)) /\
    (forall x v, In (x, v) (combine z c) -> (forall s, In s subs -> ~ replaced s x) -> In (x, v) (combine z' c')).
Proof.
  induction subs as [|s r IH]; intros z c Ha Hz HL.
  - exists z, c. cbn. split; [reflexivity|]. split; [reflexivity|]. split; [exact Hz|]. split; [exact HL|]. split; [auto|auto].
  - destruct Ha as [Hi Hr].
    destruct (insertSubgrid_spec s z Hi) as (imin & ndup & sub' & z1 & HE & Hins & _ & _ & _ & _ & _ & _ & Hsz & _).
    destruct (companion_spec dflt s z c Hi HL) as (sub2 & z2 & c2 & HU & _ & Hs2 & L2 & HP).
    cbn [update_results] in HU. rewrite HE in HU. cbn [rbind] in HU.
    destruct (insertWithDuplicates_value c imin (length sub') dflt ndup) as [c1|er|] eqn:EC; cbn [rbind] in HU; try discriminate.
    injection HU as <- <-.
    destruct (IH z1 c1 (Hr _ _ _ _ HE) Hs2 L2) as (z' & c' & E1 & E2 & E3 & E4 & E5 & E6).
    exists z', c'. cbn [update_results insert_all]. rewrite HE. cbn [rbind]. rewrite EC. cbn [rbind].
    split; [exact E1|]. split; [exact E2|]. split; [exact E3|]. split; [exact E4|]. split.
    + intros x v H. destruct (E5 x v H) as [->|H']; [left; reflexivity|]. apply HP in H'. destruct H' as [[_ ->]|[H' _]]; auto.
    + intros x v H Hn. apply E6; [|intros s' Hs'; apply Hn; right; exact Hs']. apply HP. right. split; [exact H|]. apply Hn. left; reflexivity.
Qed.
