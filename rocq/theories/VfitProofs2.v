From Verif Require Import Base RangeModel RangeProofs RangeGridProofs F64 RatSpec RatProofs VfitModel VfitSpec VfitProofs.
Open Scope Q_scope.

Definition own (a : bool) (s : state) : list (option Q) := if a then s_alv s else s_elv s.
Record frame2 (a : bool) (Zidx cand : nat) (s s' : state) : Prop := mkFr2 {
  f2_fitter : s_fitter s' = s_fitter s; f2_noism : s_noism s' = s_noism s; f2_cont : s_cont s' = s_cont s;
  f2_chi : only_at Zidx (s_chi s) (s_chi s'); f2_own : only_at cand (own a s) (own a s'); f2_lst : own (negb a) s' = own (negb a) s;
  f2_other : get_vel (negb a) s' = get_vel (negb a) s; f2_sol : only_at Zidx (s_sol s) (s_sol s') }.

Lemma bt_v key o : b_v (bt key o) = match o with None => None | Some p => Some (snd p) end.
Proof. destruct o as [[z v]|]; reflexivity. Qed.
Lemma bt_m key z v : b_merit (bt key (Some (z, v))) = key (z, v).
Proof. reflexivity. Qed.

Lemma line_type_spec e zs a n Zidx cand ks l vs s x0 c0 :
  s_fitter s <> Own -> (Zidx < length (s_sol s))%nat -> nth_error (s_chi s) Zidx = Some c0 -> nth_error (own a s) cand = Some x0 ->
  (forall k, In k ks -> (k < length zs)%nat) -> velfitlist l = Ok vs ->
  let ps := tests (map (fun k => nth k zs 0) ks) vs in
  exists s', line_type e zs a n Zidx cand ks l s = Ok s' /\ frame2 a Zidx cand s s' /\
    (exists x1 c1, nth_error (own a s') cand = Some x1 /\ nth_error (s_chi s') Zidx = Some c1 /\
      scanned (fun p => e_merit e (prun a s n p)) ps (get_vel a s) x0 c0 (get_vel a s') x1 c1) /\
    (ps = [] -> s_sol s' = s_sol s) /\
    (forall q z v, ps = (q ++ [(z, v)])%list -> nth_error (s_sol s') Zidx = Some (prun a s n (z, v))).
Proof.
  intros F L C0 X0 K V ps. unfold line_type. rewrite V. cbn [rbind]. rewrite (zloop_ploop e zs a n Zidx vs ks K).
  fold ps. destruct (ploop_spec e a n Zidx ps s None F L) as (s1 & E & F1 & L1). cbn [bt] in E. rewrite E. cbn [rbind].
  set (key := fun p => e_merit e (prun a s n p)) in *. clearbody ps.
  change (fold_left (pick key) ps None) with (scan key ps). pose proof (scan_spec key ps) as Sp.
  rewrite bt_v. destruct (scan key ps) as [[z v]|].
  - cbn [snd]. rewrite bt_m.
    destruct (vset_ok (s_chi s1) Zidx (key (z, v))) as (c & Ec & Lc & Nc & Oc).
    { rewrite (fr_chi _ _ _ _ F1). apply (nth_error_len _ _ _ C0). }
    rewrite Ec. cbn [rbind].
    assert (G : exists x, vset (own a s1) cand (Some v) = Ok x /\ only_at cand (own a s) x /\ nth_error x cand = Some (Some v)).
    { destruct (vset_ok (own a s1) cand (Some v)) as (x & Ex & Lx & Nx & Ox).
      - assert (own a s1 = own a s) by (unfold own; destruct a; [apply (fr_alv _ _ _ _ F1)|apply (fr_elv _ _ _ _ F1)]).
        rewrite H. apply (nth_error_len _ _ _ X0).
      - exists x. split; auto. assert (H : own a s1 = own a s) by (unfold own; destruct a; [apply (fr_alv _ _ _ _ F1)|apply (fr_elv _ _ _ _ F1)]).
        rewrite H in *. split; auto. split; auto. }
    destruct G as (x & Ex & Ox & Nx).
    destruct a; cbn [set_vel own negb get_vel] in *; cbn [s_alv s_elv with_va with_ve with_chi] in *; rewrite Ex; cbn [rbind].
    all: eexists; split; [reflexivity|].
    all: destruct F1 as [A1 A2 A3 A4 A5 A6 A7 A8]; destruct L1 as [La Lb].
    all: split; [constructor; cbn [with_va with_ve with_chi with_alv with_elv s_fitter s_noism s_cont s_chi s_alv s_elv s_sol s_va s_ve own negb get_vel]; auto; rewrite A4 in Lc, Oc; split; auto|].
    all: cbn [with_va with_ve with_chi with_alv with_elv s_fitter s_noism s_cont s_chi s_alv s_elv s_sol s_va s_ve own negb get_vel].
    all: split; [exists (Some v), (key (z, v)); split; [exact Nx|]; split; [exact Nc|]; left; exists z, v; auto|].
    all: split; [intro N; rewrite (La N); reflexivity|]; intros q z' v' Eq; apply (Lb q z' v' Eq).
  - destruct F1 as [A1 A2 A3 A4 A5 A6 A7 A8]; destruct L1 as [La Lb].
    exists s1. split; [reflexivity|]. split.
    { constructor; auto; unfold own; try rewrite A4; try rewrite A5; try rewrite A6; destruct a; auto; split; auto. }
    split; [|split; [intro N; rewrite (La N); reflexivity|intros q z v Eq; apply (Lb q z v Eq)]].
    exists x0, c0. split; [destruct a; cbn [own] in *; congruence|]. split; [congruence|]. right. split; [exact Sp|]. split; auto. split; auto.
    split; [intro N; rewrite (La N); reflexivity|]. intros q z v Eq. apply (Lb q z v Eq).
Qed.

(** ** the redshifts *)
Lemma filter_seq f lo hi n : (forall k, f k = (Nat.leb lo k && Nat.leb k hi)%bool) -> (hi < n)%nat -> filter f (seq 0 n) = seq lo (S hi - lo).
Proof.
  intros Hf Hn.
  assert (G : forall m, filter f (seq 0 m) = seq lo (Nat.min m (S hi) - lo)).
  { induction m as [|m IH]; [reflexivity|]. rewrite seq_S, filter_app, IH. cbn [filter plus].
    rewrite Hf. destruct (Nat.leb_spec lo m) as [A|A]; destruct (Nat.leb_spec m hi) as [B|B]; cbn [andb].
    - replace (Nat.min (S m) (S hi) - lo)%nat with (S (m - lo)) by lia. replace (Nat.min m (S hi) - lo)%nat with (m - lo)%nat by lia.
      rewrite seq_S. replace (lo + (m - lo))%nat with m by lia. reflexivity.
    - rewrite app_nil_r. f_equal. lia.
    - rewrite app_nil_r. f_equal. lia.
    - rewrite app_nil_r. f_equal. lia. }
  rewrite G. f_equal. lia.
Qed.
Lemma near_samples_seq zs ib ie Zidx : (ie < length zs)%nat ->
  near_samples zs ib ie Zidx =
  map (fun k => nth k zs 0) (seq (Nat.max ib (Zidx - 6)) (S (Nat.min ie (Zidx + 6)) - Nat.max ib (Zidx - 6))).
Proof.
  intro H. unfold near_samples. f_equal. apply filter_seq; [|lia]. intro k.
  repeat match goal with |- context[Nat.leb ?a ?b] => destruct (Nat.leb_spec a b) as [?|?] end; cbn; auto; exfalso; lia.
Qed.
Lemma near_samples_in zs ib ie Zidx z : In z (near_samples zs ib ie Zidx) <->
  exists k, nth_error zs k = Some z /\ (ib <= k <= ie)%nat /\ (Zidx <= k + 6)%nat /\ (k <= Zidx + 6)%nat.
Proof.
  unfold near_samples. rewrite in_map_iff. split.
  - intros (k & <- & I). apply filter_In in I. destruct I as [I B]. apply in_seq in I.
    rewrite !andb_true_iff, !Nat.leb_le in B. exists k. split; [apply nth_error_nth'; lia|lia].
  - intros (k & N & B & C & D). exists k. split; [apply nth_error_nth; exact N|]. apply filter_In.
    split; [apply in_seq; pose proof (nth_error_len _ _ _ N); lia|]. rewrite !andb_true_iff, !Nat.leb_le. lia.
Qed.
Lemma getIndex_first zs z i : first_at zs z i -> getIndex zs z = Ok i.
Proof.
  intros [(x & N & E) B]. pose proof (getIndex_spec zs z) as H. destruct (getIndex zs z) as [j|[]|]; try contradiction.
  - destruct H as [(y & Ny & Ey) Bj]. f_equal. destruct (lt_eq_lt_dec i j) as [[L|L]|L]; auto; exfalso.
    + apply (Bj i x L N E).
    + apply (B j y L Ny Ey).
  - exfalso. apply (H x); auto. apply (nth_error_In _ _ N).
Qed.
Lemma getIndex_first_inv zs z i : getIndex zs z = Ok i -> first_at zs z i.
Proof. intro E. pose proof (getIndex_spec zs z) as H. rewrite E in H. exact H. Qed.
Lemma first_at_lt zs z i : first_at zs z i -> (i < length zs)%nat.
Proof. intros [(x & N & _) _]. apply (nth_error_len _ _ _ N). Qed.

(** ** fitVelocity *)
Lemma fitVelocity_spec e c zs ext Zidx cand n s w ib ie vsA vsE a0 e0 c0 zf zb :
  nth_error ext cand = Some w -> front w = Ok zf -> back w = Ok zb -> first_at zs zf ib -> first_at zs zb ie ->
  (Zidx < length (s_sol s))%nat -> nth_error (s_chi s) Zidx = Some c0 ->
  nth_error (s_alv s) cand = Some a0 -> nth_error (s_elv s) cand = Some e0 ->
  velfitlist (k_abs c) = Ok vsA -> velfitlist (k_em c) = Ok vsE ->
  let u := vel_setup c (s_cont s) (s_noism s) n in
  let zw := near_samples zs ib ie Zidx in
  exists s' a1 e1 c1 c2,
    fitVelocity e c zs ext Zidx cand n s = Ok s' /\
    scanned (fun p => e_merit e (abs_run u (s_ve s) p)) (tests zw vsA) (s_va s) a0 c0 (s_va s') a1 c1 /\
    scanned (fun p => e_merit e (em_run u (s_va s') p)) (tests zw vsE) (s_ve s) e0 c1 (s_ve s') e1 c2 /\
    nth_error (s_alv s') cand = Some a1 /\ nth_error (s_elv s') cand = Some e1 /\ nth_error (s_chi s') Zidx = Some c2 /\
    only_at cand (s_alv s) (s_alv s') /\ only_at cand (s_elv s) (s_elv s') /\
    only_at Zidx (s_chi s) (s_chi s') /\ only_at Zidx (s_sol s) (s_sol s') /\
    s_fitter s' = s_fitter s /\ s_cont s' = s_cont s /\ s_noism s' = (if k_tplratio c then false else s_noism s) /\
    (forall q z v, tests zw vsE = (q ++ [(z, v)])%list -> nth_error (s_sol s') Zidx = Some (em_run u (s_va s') (z, v))).
Proof.
  intros W Wf Wb Ib Ie Lz C0 A0 E0 VA VE u zw. unfold fitVelocity, vget. rewrite W. cbn [rbind]. rewrite Wf. cbn [rbind]. rewrite Wb. cbn [rbind].
  rewrite (getIndex_first _ _ _ Ib), (getIndex_first _ _ _ Ie). cbn [rbind].
  set (ks := seq _ _).
  assert (K : forall k, In k ks -> (k < length zs)%nat).
  { intros k I. apply in_seq in I. apply first_at_lt in Ie. lia. }
  assert (ZW : map (fun k => nth k zs 0) ks = zw).
  { symmetry. apply near_samples_seq. apply (first_at_lt _ _ _ Ie). }
  set (s1 := if k_tplratio c then _ else _).
  assert (Hs : s_fitter s1 <> Own /\ s_sol s1 = s_sol s /\ s_chi s1 = s_chi s /\ s_alv s1 = s_alv s /\ s_elv s1 = s_elv s /\
    s_va s1 = s_va s /\ s_ve s1 = s_ve s /\ s_cont s1 = s_cont s /\ mkS (s_fitter s1) (s_noism s1) (s_cont s1) n = u /\
    (k_tplratio c = false -> s_noism s1 = s_noism s)).
  { unfold s1, u, vel_setup. destruct (k_tplratio c); cbn; repeat split; auto; discriminate. }
  destruct Hs as (HF & HS & HC & HA & HE & Hva & Hve & Hco & Hu & Hni). clearbody s1.
  destruct (line_type_spec e zs true n Zidx cand ks (k_abs c) vsA s1 a0 c0 HF) as (s2 & E2 & F2 & (a1 & c1 & X1 & X2 & Sc2) & Sn2 & Sl2); auto.
  { rewrite HS; exact Lz. } { rewrite HC; exact C0. } { cbn [own]. rewrite HA. exact A0. }
  rewrite E2. cbn [rbind].
  destruct (line_type_spec e zs false n Zidx cand ks (k_em c) vsE s2 e0 c1) as (s3 & E3 & F3 & (e1 & c2 & Y1 & Y2 & Sc3) & Sn3 & Sl3); auto.
  { rewrite (f2_fitter _ _ _ _ _ F2). exact HF. }
  { destruct (f2_sol _ _ _ _ _ F2) as [H _]. rewrite H, HS. exact Lz. }
  { pose proof (f2_lst _ _ _ _ _ F2) as H. cbn in H. cbn. rewrite H, HE. exact E0. }
  rewrite E3. cbn [rbind]. rewrite ZW in *.
  destruct F2 as [P1 P2 P3 P4 P5 P6 P7 P8]. destruct F3 as [R1 R2 R3 R4 R5 R6 R7 R8]. cbn [own negb get_vel] in *.
  set (s4 := with_fitter s3 (s_fitter s)). set (s5 := if k_tplratio c then with_noism s4 false else s4).
  assert (H5 : s_va s5 = s_va s3 /\ s_ve s5 = s_ve s3 /\ s_sol s5 = s_sol s3 /\ s_chi s5 = s_chi s3 /\ s_alv s5 = s_alv s3 /\ s_elv s5 = s_elv s3 /\
    s_cont s5 = s_cont s3 /\ s_fitter s5 = s_fitter s /\ s_noism s5 = if k_tplratio c then false else s_noism s3).
  { unfold s5, s4. destruct (k_tplratio c); cbn; repeat split; auto. }
  destruct H5 as (Q1 & Q2 & Q3 & Q4 & Q5 & Q6 & Q7 & Q8 & Q9). clearbody s5.
  exists s5, a1, e1, c1, c2. rewrite Q1, Q2, Q3, Q4, Q5, Q6, Q7, Q8, Q9.
  assert (KA : forall p, prun true s1 n p = abs_run u (s_ve s) p). { intro p. unfold prun. rewrite Hu, Hve. reflexivity. }
  assert (KE : forall p, prun false s2 n p = em_run u (s_va s3) p). { intro p. unfold prun. rewrite P1, P2, P3, Hu, R7. reflexivity. }
  assert (SCext : forall k1 k2 ps v0 x0 d0 v1 x1 d1, (forall p, k1 p = k2 p) -> scanned k1 ps v0 x0 d0 v1 x1 d1 -> scanned k2 ps v0 x0 d0 v1 x1 d1).
  { intros k1 k2 ps v0 x0 d0 v1 x1 d1 H [(z & v & (b & af & A & B & C & D) & G1 & G2 & G3)|(N & G)].
    - left. exists z, v. split; [exists b, af; split; auto; split; [rewrite <- H; auto|]; split; intros y I; rewrite <- !H; auto|]. rewrite <- H. auto.
    - right. split; auto. intros y I. rewrite <- H. auto. }
  split; [reflexivity|]. split.
  { rewrite R7. rewrite <- Hva. apply (SCext (fun p => e_merit e (prun true s1 n p))); auto. intro p. rewrite KA. reflexivity. }
  split. { rewrite <- Hve, <- P7. apply (SCext (fun p => e_merit e (prun false s2 n p))); auto. intro p. rewrite KE. reflexivity. }
  split; [congruence|]. split; auto. split; auto. split; [rewrite R6, <- HA; exact P5|]. split; [rewrite <- HE, <- P6; exact R5|].
  assert (OT : forall A i (l1 l2 l3 : list A), only_at i l1 l2 -> only_at i l2 l3 -> only_at i l1 l3).
  { intros A i l1 l2 l3 [U1 U2] [V1 V2]. split; [congruence|]. intros j N. rewrite V2, U2; auto. }
  split; [rewrite <- HC; eapply OT; eauto|]. split; [rewrite <- HS; eapply OT; eauto|]. split; auto. split; [congruence|].
  split. { destruct (k_tplratio c); auto. rewrite R2, P2. auto. }
  intros q z v Eq. rewrite (Sl3 q z v Eq). rewrite KE. reflexivity.
Qed.
