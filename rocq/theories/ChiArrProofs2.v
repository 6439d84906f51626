(** Proofs for C79: priors and array. *)
From Coq Require Import String.
From Verif Require Import Base RBase RangeModel RangeProofs MeikModel MeikProofs PdfModel LmrModel LmrSpec LmrProofs LmrProofs3 LmrProofs4 ChiArrModel ChiArrSpec ChiArrProofs.
Open Scope Q_scope.

Lemma column {A} (cols : list (list A)) n f rows k : matrix cols n f rows -> (k < n)%nat ->
  exists col, nth_error cols k = Some col /\ length col = length rows /\
    forall iz w x, nth_error rows iz = Some w -> nth_error col iz = Some x -> nth_error (f w) k = Some x.
Proof.
  intros M Hk. destruct (nth_error_lt cols k) as [col Hc]; [rewrite (proj1 M); exact Hk|]. exists col. split; [exact Hc|].
  split; [eapply matrix_len; [exact M|eapply nth_error_In; exact Hc]|].
  intros iz w x Hw Hx. destruct M as (_ & _ & M). specialize (M k col Hc).
  assert (E : nth_error (map Some col) iz = nth_error (map (fun w => nth_error (f w) k) rows) iz) by (rewrite M; reflexivity).
  rewrite !nth_error_map, Hw, Hx in E. cbn in E. injection E as E. symmetry. exact E.
Qed.

Section Rest.
Variable rest : nat -> option rline.
Variables (lowest dblmin : R).

Lemma presence_values pres pen : (0 < pen)%R ->
  GetStrongLinePresenceLogZPrior false lowest [] pres pen = Ok (map (penalty pen) pres).
Proof.
  intro P. unfold GetStrongLinePresenceLogZPrior, rlog, normalize_if. destruct (Rltb_spec 0 pen) as [L|L]; [|contradiction]. cbn [rbind].
  f_equal. apply map_ext. intro b. unfold penalty. destruct (Rlt_dec 0 pen); [reflexivity|contradiction].
Qed.
Lemma combine_values p1 p2 : length p1 = length p2 ->
  CombineLogZPrior false lowest [] p1 p2 = Ok (map (fun q => (fst q + snd q)%R) (combine p1 p2)).
Proof. intro L. unfold CombineLogZPrior. rewrite L, Nat.eqb_refl. reflexivity. Qed.

Lemma nth_plus (p1 p2 : list R) i x : nth_error (map (fun q => (fst q + snd q)%R) (combine p1 p2)) i = Some x ->
  exists a b, nth_error p1 i = Some a /\ nth_error p2 i = Some b /\ x = (a + b)%R.
Proof.
  rewrite nth_error_map. destruct (nth_error (combine p1 p2) i) as [[a b]|] eqn:E; [|discriminate]. cbn. intro K. injection K as <-.
  exists a, b. revert p2 i E. induction p1 as [|u p1 IH]; intros [|v p2] [|i] E; try discriminate; simpl in E.
  - injection E as -> ->. auto.
  - apply IH in E. exact E.
Qed.

Lemma zpriors_spec r nT nR rows o kr es : table r nT nR rows -> length (r_z r) = length rows -> usable rest r nR kr ->
  ((0 < zo_nha o)%R -> GetEuclidNhaLogZPrior false lowest dblmin [] (map Q2R (r_z r)) (zo_nha o) = Ok es) ->
  exists out, BuildZpriors rest lowest dblmin r o kr = Ok out /\ length out = length rows /\
    forall iz w p, nth_error rows iz = Some w -> nth_error out iz = Some p -> prior_value rest o kr w (nth iz es 0%R) p.
Proof.
  intros T L U HE.
  assert (Fs : exists bs, match kr with None => getStrongLinesPresence rest 1 (r_sol r) | Some k => vget (r_strong r) k end = Ok bs /\
    length bs = length rows /\ forall iz w b, nth_error rows iz = Some w -> nth_error bs iz = Some b -> strong_flag rest kr w b).
  { destruct T as (_ & _ & T3 & _ & _ & _ & _ & _ & _ & T10 & _). destruct kr as [k|].
    - destruct (column _ _ _ _ k T10 U) as (col & C & Lc & H). exists col. split; [apply vget_Ok; exact C|]. split; [exact Lc|]. exact H.
    - destruct (presence_spec rest 1 (r_sol r) U) as (bs & E & Lb & H). exists bs. split; [exact E|]. split; [rewrite Lb, T3, map_length; reflexivity|].
      intros iz w b Hw Hb. apply (H iz (w_sol w) b); [rewrite T3; apply map_nth_error; exact Hw|exact Hb]. }
  assert (Fh : exists bs, match kr with None => getStrongestLineIsHa rest (r_sol r) | Some k => vget (r_ha r) k end = Ok bs /\
    length bs = length rows /\ forall iz w b, nth_error rows iz = Some w -> nth_error bs iz = Some b -> ha_flag rest kr w b).
  { destruct T as (_ & _ & T3 & _ & _ & _ & _ & _ & _ & _ & T11 & _). destruct kr as [k|].
    - destruct (column _ _ _ _ k T11 U) as (col & C & Lc & H). exists col. split; [apply vget_Ok; exact C|]. split; [exact Lc|]. exact H.
    - destruct (ha_spec rest (r_sol r) U) as (bs & E & Lb & H). exists bs. split; [exact E|]. split; [rewrite Lb, T3, map_length; reflexivity|].
      intros iz w b Hw Hb. apply (H iz (w_sol w) b); [rewrite T3; apply map_nth_error; exact Hw|exact Hb]. }
  destruct Fs as (bs & Es & Ls & Hs). destruct Fh as (bh & Eh & Lh & Hh).
  unfold BuildZpriors. rewrite Es, Eh. cbn [rbind].
  assert (P1 : (if Rltb 0 (zo_strong o) then GetStrongLinePresenceLogZPrior false lowest [] bs (zo_strong o) else GetConstantLogZPrior false lowest [] (length (r_z r)))
    = Ok (map (penalty (zo_strong o)) bs)).
  { destruct (Rltb_spec 0 (zo_strong o)) as [P|P]; [apply presence_values; exact P|]. unfold GetConstantLogZPrior, normalize_if. f_equal.
    rewrite L, <- Ls. clear - P. induction bs as [|b t IH]; [reflexivity|]. cbn [length repeat map]. rewrite IH. f_equal. unfold penalty.
    destruct (Rlt_dec 0 (zo_strong o)); [contradiction|reflexivity]. }
  rewrite P1. cbn [rbind]. clear P1. set (p1 := map (penalty (zo_strong o)) bs).
  assert (L1 : length p1 = length rows) by (unfold p1; rewrite map_length; exact Ls).
  assert (P2 : exists p2, (if Rltb 0 (zo_ha o) then do p <- GetStrongLinePresenceLogZPrior false lowest [] bh (zo_ha o); CombineLogZPrior false lowest [] p1 p else Ok p1) = Ok p2 /\
    length p2 = length rows /\ forall i x, nth_error p2 i = Some x -> exists a b, nth_error bs i = Some a /\ nth_error bh i = Some b /\
      x = (penalty (zo_strong o) a + penalty (zo_ha o) b)%R).
  { destruct (Rltb_spec 0 (zo_ha o)) as [P|P].
    - rewrite (presence_values bh (zo_ha o) P). cbn [rbind]. rewrite combine_values by (rewrite map_length; lia).
      eexists; split; [reflexivity|]. split; [rewrite map_length, combine_length, map_length; lia|].
      intros i x Hx. apply nth_plus in Hx. destruct Hx as (a & b & Ha & Hb & ->). unfold p1 in Ha. rewrite nth_error_map in Ha, Hb.
      destruct (nth_error bs i) as [a'|]; [|discriminate]. destruct (nth_error bh i) as [b'|]; [|discriminate]. cbn in Ha, Hb.
      injection Ha as <-. injection Hb as <-. eauto.
    - exists p1. split; [reflexivity|]. split; [exact L1|]. intros i x Hx. unfold p1 in Hx. rewrite nth_error_map in Hx.
      destruct (nth_error bs i) as [a|] eqn:Ha; [|discriminate]. cbn in Hx. injection Hx as <-.
      destruct (nth_error_lt bh i) as [b Hb]; [rewrite Lh, <- Ls; eapply nth_error_len; exact Ha|]. exists a, b. repeat (split; [auto|]).
      unfold penalty at 3. destruct (Rlt_dec 0 (zo_ha o)); [contradiction|]. ring. }
  destruct P2 as (p2 & E2 & L2 & H2). rewrite E2. cbn [rbind].
  assert (P3 : exists p3, (if Rltb 0 (zo_nha o) then do p <- GetEuclidNhaLogZPrior false lowest dblmin [] (map Q2R (r_z r)) (zo_nha o); CombineLogZPrior false lowest [] p2 p else Ok p2) = Ok p3 /\
    length p3 = length rows /\ forall i x, nth_error p3 i = Some x -> exists a, nth_error p2 i = Some a /\
      x = (a + if Rlt_dec 0 (zo_nha o) then nth i es 0 else 0)%R).
  { destruct (Rltb_spec 0 (zo_nha o)) as [P|P].
    - rewrite (HE P). cbn [rbind].
      assert (Le : length es = length rows).
      { specialize (HE P). unfold GetEuclidNhaLogZPrior, normalize_if in HE. destruct (Rleb (zo_nha o) 0); [discriminate|].
        injection HE as <-. rewrite !map_length. exact L. }
      rewrite combine_values by lia. eexists; split; [reflexivity|]. split; [rewrite map_length, combine_length; lia|].
      intros i x Hx. apply nth_plus in Hx. destruct Hx as (a & b & Ha & Hb & ->). exists a. split; [exact Ha|].
      destruct (Rlt_dec 0 (zo_nha o)); [|contradiction]. rewrite (nth_error_nth _ _ 0%R Hb). reflexivity.
    - exists p2. split; [reflexivity|]. split; [exact L2|]. intros i x Hx. exists x. split; [exact Hx|].
      destruct (Rlt_dec 0 (zo_nha o)); [contradiction|]. ring. }
  destruct P3 as (p3 & E3 & L3 & H3). rewrite E3. cbn [rbind].
  destruct (Rltb_spec 0 nlines_factor) as [P|_]; [unfold nlines_factor in P; lra|].
  exists p3. split; [reflexivity|]. split; [exact L3|]. intros iz w p Hw Hp.
  destruct (H3 iz p Hp) as (a & Ha & ->). destruct (H2 iz a Ha) as (b1 & b2 & B1 & B2 & ->).
  exists b1, b2. split; [eapply Hs; eauto|]. split; [eapply Hh; eauto|]. reflexivity.
Qed.

(** *** the loops adding the continua *)
Definition full_row (zsize : nat) (c0 c base : list flt) : res (list flt) :=
  mapr (fun iz => do b <- vget base iz; do x <- vget c iz; do y <- vget c0 iz; Ok (fadd b (Some (max0 x y)))) (seq 0 zsize).
Definition full (base c c0 : list flt) : list flt := map (fun t => fadd (fst (fst t)) (Some (max0 (snd (fst t)) (snd t)))) (combine (combine base c) c0).

Lemma full_row_ok n c0 c base : length c0 = n -> length c = n -> length base = n ->
  exists row, full_row n c0 c base = Ok row /\ length row = n /\
    forall iz b x y, nth_error base iz = Some b -> nth_error c iz = Some x -> nth_error c0 iz = Some y -> nth_error row iz = Some (fadd b (Some (max0 x y))).
Proof.
  intros L0 L1 L2. unfold full_row.
  destruct (mapr_total' (fun iz => do b <- vget base iz; do x <- vget c iz; do y <- vget c0 iz; Ok (fadd b (Some (max0 x y)))) (seq 0 n)
    (fun iz v => exists b x y, nth_error base iz = Some b /\ nth_error c iz = Some x /\ nth_error c0 iz = Some y /\ v = fadd b (Some (max0 x y)))) as (row & E & Lr & H).
  { intros iz Hi. apply in_seq in Hi. destruct (nth_error_lt base iz ltac:(lia)) as [b Hb]. destruct (nth_error_lt c iz ltac:(lia)) as [x Hx].
    destruct (nth_error_lt c0 iz ltac:(lia)) as [y Hy]. rewrite (proj2 (vget_Ok _ _ _) Hb), (proj2 (vget_Ok _ _ _) Hx), (proj2 (vget_Ok _ _ _) Hy). cbn [rbind].
    eexists; split; [reflexivity|]. exists b, x, y. auto. }
  exists row. rewrite seq_length in Lr. split; [exact E|]. split; [exact Lr|]. intros iz b x y Hb Hx Hy.
  assert (Hi : (iz < n)%nat) by (rewrite <- L2; eapply nth_error_len; exact Hb).
  destruct (nth_error_lt row iz ltac:(lia)) as [v Hv].
  destruct (H iz iz v) as (b' & x' & y' & Hb' & Hx' & Hy' & ->); [|exact Hv|congruence].
  rewrite (nth_error_nth' _ 0%nat) by (rewrite seq_length; exact Hi). rewrite seq_nth by exact Hi. reflexivity.
Qed.

Lemma inner_loop n c0 k base z : length c0 = n -> length base = n -> forall cs chi2 zp mp, (forall c, In c cs -> length c = n) ->
  nth_error chi2 k = Some base -> nth_error zp k = Some z -> (mp = [] \/ (k < length mp)%nat) ->
  exists rows, rloop (push_model n c0 k) cs (chi2, zp, mp) =
      Ok (chi2 ++ rows, zp ++ repeat z (length cs), match nth_error mp k with Some m => mp ++ repeat m (length cs) | None => mp end)%list /\
    length rows = length cs /\
    forall i c, nth_error cs i = Some c -> exists row, nth_error rows i = Some row /\ full_row n c0 c base = Ok row.
Proof.
  intros L0 Lb. induction cs as [|c t IH]; intros chi2 zp mp Hc Hb Hz Hm; cbn [rloop].
  - exists []. split; [|split; [reflexivity|intros [|i] c K; discriminate]]. cbn [length repeat]. destruct (nth_error mp k); rewrite ?app_nil_r; reflexivity.
  - destruct (full_row_ok n c0 c base L0 (Hc c (or_introl eq_refl)) Lb) as (row & Er & _).
    unfold push_model at 1. rewrite (proj2 (vget_Ok _ _ _) Hz), (proj2 (vget_Ok _ _ _) Hb). cbn [rbind]. fold (full_row n c0 c base). rewrite Er. cbn [rbind].
    assert (Em : match mp with [] => Ok mp | _ :: _ => do m <- vget mp k; Ok (mp ++ [m])%list end =
      Ok (match nth_error mp k with Some m => mp ++ [m] | None => mp end)%list).
    { destruct mp as [|m0 mp0]; [destruct k; reflexivity|]. destruct Hm as [Hm|Hm]; [discriminate|]. destruct (nth_error_lt _ _ Hm) as [m Hn].
      rewrite (proj2 (vget_Ok _ _ _) Hn), Hn. reflexivity. }
    rewrite Em. cbn [rbind].
    assert (Kb : (k < length chi2)%nat) by (eapply nth_error_len; exact Hb). assert (Kz : (k < length zp)%nat) by (eapply nth_error_len; exact Hz).
    destruct (IH (chi2 ++ [row])%list (zp ++ [z])%list (match nth_error mp k with Some m => mp ++ [m] | None => mp end)%list) as (rows & E & Lr & H).
    { intros c' Hc'. apply Hc. right. exact Hc'. } { rewrite nth_error_app1; assumption. } { rewrite nth_error_app1; assumption. }
    { destruct (nth_error mp k) as [m|] eqn:Hn; [right|exact Hm]. rewrite app_length. apply nth_error_len in Hn. lia. }
    exists (row :: rows). split; [|split; [cbn [length]; lia|]].
    + rewrite E. cbn [length repeat]. rewrite <- !app_assoc. cbn [app]. f_equal. f_equal.
      destruct (nth_error mp k) as [m|] eqn:Hn; [|rewrite Hn; reflexivity].
      rewrite nth_error_app1 by (eapply nth_error_len; exact Hn). rewrite Hn, <- app_assoc. reflexivity.
    + intros [|i] c' Hi; simpl in Hi; [injection Hi as <-; exists row; auto|]. cbn [nth_error]. apply H. exact Hi.
Qed.

Lemma outer_loop n c0 cs chi2 zp mp : length c0 = n -> (forall c, In c cs -> length c = n) -> (forall b, In b chi2 -> length b = n) ->
  length zp = length chi2 -> (mp = [] \/ length mp = length chi2) -> forall m k0 X Y W,
  (k0 + m <= length chi2)%nat -> (mp = [] -> W = []) ->
  exists X' Y' W', rloop (fun k => rloop (push_model n c0 k) cs) (seq k0 m) (chi2 ++ X, zp ++ Y, mp ++ W)%list =
      Ok (chi2 ++ X ++ X', zp ++ Y ++ Y', mp ++ W ++ W')%list /\
    length X' = (m * length cs)%nat /\ length Y' = (m * length cs)%nat /\ length W' = (if mp then 0 else m * length cs)%nat /\
    forall d i c, (d < m)%nat -> nth_error cs i = Some c ->
      (exists base row, nth_error chi2 (k0 + d) = Some base /\ full_row n c0 c base = Ok row /\ nth_error X' (d * length cs + i) = Some row) /\
      nth_error Y' (d * length cs + i) = nth_error zp (k0 + d) /\
      (mp <> [] -> nth_error W' (d * length cs + i) = nth_error mp (k0 + d)).
Proof.
  intros L0 Lc Lb Lz Lm. induction m as [|m IH]; intros k0 X Y W Hk HW; cbn [seq rloop].
  - exists [], [], []. rewrite !app_nil_r. split; [reflexivity|]. repeat (split; [reflexivity|]). split; [destruct mp; reflexivity|]. intros d i c Hd. lia.
  - destruct (nth_error_lt chi2 k0 ltac:(lia)) as [base Hb]. destruct (nth_error_lt zp k0 ltac:(lia)) as [z Hz].
    destruct (inner_loop n c0 k0 base z L0 (Lb base (nth_error_In _ _ Hb)) cs (chi2 ++ X)%list (zp ++ Y)%list (mp ++ W)%list Lc) as (rows & E & Lr & H).
    { rewrite nth_error_app1 by lia. exact Hb. } { rewrite nth_error_app1 by lia. exact Hz. }
    { destruct Lm as [Lm|Lm]; [left; rewrite Lm, (HW Lm); reflexivity|right; rewrite app_length; lia]. }
    rewrite E. cbn [rbind]. clear E.
    set (w := match mp with [] => [] | _ => match nth_error mp k0 with Some x => repeat x (length cs) | None => [] end end).
    assert (Ew : match nth_error (mp ++ W) k0 with Some x => ((mp ++ W) ++ repeat x (length cs))%list | None => (mp ++ W)%list end = (mp ++ W ++ w)%list).
    { destruct Lm as [Lm|Lm].
      - unfold w. rewrite (HW Lm), Lm. cbn. destruct k0; reflexivity.
      - rewrite nth_error_app1 by lia. destruct (nth_error_lt mp k0 ltac:(lia)) as [x Hx]. rewrite Hx. unfold w. rewrite Hx.
        destruct mp as [|q mq]; [simpl in Lm; lia|]. rewrite <- app_assoc. reflexivity. }
    rewrite Ew. rewrite <- !app_assoc.
    destruct (IH (S k0) (X ++ rows)%list (Y ++ repeat z (length cs))%list (W ++ w)%list) as (X' & Y' & W' & E & A & B & C & D).
    { lia. } { intro K. unfold w. rewrite K, (HW K). reflexivity. }
    rewrite E. clear E. exists (rows ++ X')%list, (repeat z (length cs) ++ Y')%list, (w ++ W')%list.
    rewrite <- !app_assoc. split; [reflexivity|].
    assert (Lw : length w = if mp then 0%nat else length cs).
    { unfold w. destruct mp as [|q mq]; [reflexivity|]. destruct Lm as [Lm|Lm]; [discriminate|].
      destruct (nth_error_lt (q :: mq) k0 ltac:(lia)) as [x Hx]. rewrite Hx. apply repeat_length. }
    split; [rewrite app_length; lia|]. split; [rewrite app_length, repeat_length; lia|]. split; [rewrite app_length; destruct mp; lia|].
    intros [|d] i c Hd Hi.
    + pose proof (nth_error_len _ _ _ Hi) as Li. rewrite Nat.mul_0_l, Nat.add_0_l, Nat.add_0_r. destruct (H i c Hi) as (row & Hr & Er). split; [|split].
      * exists base, row. split; [exact Hb|]. split; [exact Er|]. rewrite nth_error_app1 by lia. exact Hr.
      * rewrite nth_error_app1 by (rewrite repeat_length; lia). rewrite Hz. rewrite (nth_error_nth' _ z) by (rewrite repeat_length; lia). rewrite nth_repeat. reflexivity.
      * intro Nm. unfold w. destruct mp as [|q mq]; [contradiction|]. destruct Lm as [Lm|Lm]; [discriminate|].
        destruct (nth_error_lt (q :: mq) k0 ltac:(lia)) as [x Hx]. rewrite Hx. rewrite nth_error_app1 by (rewrite repeat_length; lia).
        rewrite (nth_error_nth' _ x) by (rewrite repeat_length; lia). rewrite nth_repeat. reflexivity.
    + destruct (D d i c ltac:(lia) Hi) as ((b' & row & D1 & D2 & D3) & D4 & D5).
      replace (S k0 + d)%nat with (k0 + S d)%nat in * by lia.
      replace (S d * length cs + i)%nat with (length cs + (d * length cs + i))%nat by lia. split; [|split].
      * exists b', row. split; [exact D1|]. split; [exact D2|]. rewrite nth_error_app2 by lia. rewrite Lr. replace (length cs + (d * length cs + i) - length cs)%nat with (d * length cs + i)%nat by lia. exact D3.
      * rewrite nth_error_app2 by (rewrite repeat_length; lia). rewrite repeat_length. replace (length cs + (d * length cs + i) - length cs)%nat with (d * length cs + i)%nat by lia. exact D4.
      * intro Nm. rewrite nth_error_app2 by (rewrite Lw; destruct mp; [contradiction|lia]). rewrite Lw. destruct mp as [|q mq]; [contradiction|].
        replace (length cs + (d * length cs + i) - length cs)%nat with (d * length cs + i)%nat by lia. apply D5. discriminate.
Qed.
End Rest.
