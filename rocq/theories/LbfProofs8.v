(** The objective minimised, and its dependence on the evaluations done before (C94). *)
From Verif Require Import Base F64 PolyModel LbfModel LbfSpec LbfProofs LbfProofs2 LbfProofs3 LbfProofs4.
Open Scope Q_scope.

Section Fit.
Context (c : conf) (axis flux cont err : list Q).
Context (outside_of : kind -> line -> Q -> Q -> bool) (profile : kind -> line -> Q -> Q -> Q -> res Q).

Notation prepareSupport := (prepareSupport outside_of).
Notation unpack := (unpack c outside_of).
Notation evaluate := (evaluate c axis flux cont err outside_of profile).

(** *** the objective *)
Section Value.
Context (prof : kind -> line -> Q -> Q -> Q -> Q).
Hypothesis Hprof : forall k l v o y, profile k l v o y = Ok (prof k l v o y).

Lemma model_lines_value k v x cx ls : forall os ou am acc,
  exists r, model_lines profile k v x cx ls os ou am acc = Ok r /\ r == acc + lines_value prof k v x cx ls os ou am.
Proof.
  induction ls as [|l ls IH]; intros os ou am acc; [exists acc; split; [reflexivity|cbn; lra]|].
  destruct os as [|o os]; [exists acc; split; [reflexivity|cbn; lra]|].
  destruct ou as [|b ou]; [exists acc; split; [reflexivity|cbn; lra]|].
  destruct am as [|a am]; [exists acc; split; [reflexivity|cbn; lra]|].
  cbn [LbfModel.model_lines lines_value]. destruct b.
  { destruct (IH os ou am acc) as (r & E & H). exists r. split; [exact E|rewrite H; ring]. }
  destruct a as [a|].
  - destruct (Qltb a 0).
    + destruct (IH os ou am acc) as (r & E & H). exists r. split; [exact E|rewrite H; ring].
    + rewrite Hprof. cbn [rbind].
      destruct (IH os ou am (acc + match k with Em => a * prof k l v o x | Ab => cx * (- a * prof k l v o x) end)) as (r & E & H).
      exists r. split; [exact E|rewrite H; destruct k; ring].
  - destruct (IH os ou am acc) as (r & E & H). exists r. split; [exact E|rewrite H; ring].
Qed.

Lemma model_value x cx e : exists r, getModelAtLambda profile e x cx = Ok r /\ r == elt_value prof x cx e.
Proof.
  unfold getModelAtLambda, elt_value. destruct (out e); [exists 0; split; reflexivity|].
  destruct (model_lines_value (kd e) (velocity e) x cx (lines e) (offs e) (outs e) (amps e) 0) as (r & E & H).
  exists r. split; [exact E|rewrite H; ring].
Qed.

Lemma sum_value x cx st : forall acc, exists r, sum_elts profile st x cx acc = Ok r /\ r == acc + sumQ (elt_value prof x cx) st.
Proof.
  induction st as [|e st IH]; intro acc; [exists acc; split; [reflexivity|cbn; lra]|]. cbn [LbfModel.sum_elts sumQ].
  destruct (model_value x cx e) as (m & Em & Hm). rewrite Em. cbn [rbind].
  destruct (IH (acc + m)) as (r & E & H). exists r. split; [exact E|rewrite H, Hm; ring].
Qed.

(** model at one sample: the elements and the polynomial *)
Definition model_at (st : list elt) (p : npolynom) (x cx : Q) : Q :=
  sumQ (elt_value prof x cx) st + (if c_poly c then n0 p + n1 p * (x / scale p + x0red p) + n2 p * ((x / scale p + x0red p) * (x / scale p + x0red p)) else 0).
(** squared residual at sample [i], in units of the error *)
Definition residual (nf : Q) (st : list elt) (p : npolynom) (i : nat) : Q :=
  let e := nth i err 0 * nf in
  let d := nth i flux 0 * nf - model_at st p (nth i axis 0) (nth i cont 0) in d * d / (e * e).

Lemma vget_ok {A} (v : list A) i a d : vget v i = Ok a -> a = nth i v d.
Proof. unfold vget. destruct (nth_error v i) eqn:N; [|discriminate]. intro H. apply Ok_inj in H. subst. symmetry. apply nth_error_nth, N. Qed.

Lemma data_square_acc nf xs : forall acc s, data_square flux err nf xs acc = Ok s ->
  s == acc + sumQ (fun i => let y := nth i flux 0 * nf in let e := nth i err 0 * nf in y * y / (e * e)) xs.
Proof.
  induction xs as [|i xs IH]; intros acc s E; [apply Ok_inj in E; subst; cbn; lra|]. cbn [data_square] in E.
  apply rbind_inv in E. destruct E as (fl & E1 & E). apply rbind_inv in E. destruct E as (er & E2 & E).
  cbv zeta in E. apply IH in E. rewrite E. rewrite (vget_ok _ _ _ 0 E1), (vget_ok _ _ _ 0 E2). cbn [sumQ]. cbv zeta. ring.
Qed.

Lemma least_square_acc nf st p xs : forall acc v, least_square c axis flux cont err profile nf st p xs acc = Ok v ->
  v == acc + sumQ (fun i => residual nf st p i - (let y := nth i flux 0 * nf in let e := nth i err 0 * nf in y * y / (e * e))) xs.
Proof.
  induction xs as [|i xs IH]; intros acc v E; [apply Ok_inj in E; subst; cbn; lra|]. cbn [LbfModel.least_square] in E.
  apply rbind_inv in E. destruct E as (xi & E1 & E). apply rbind_inv in E. destruct E as (fl & E2 & E).
  apply rbind_inv in E. destruct E as (er & E3 & E). apply rbind_inv in E. destruct E as (cx & E4 & E).
  cbv zeta in E. apply rbind_inv in E. destruct E as (f & E5 & E). apply IH in E. rewrite E. cbn [sumQ]. cbv zeta. unfold residual. cbv zeta.
  rewrite <- (vget_ok _ _ _ 0 E1), <- (vget_ok _ _ _ 0 E2), <- (vget_ok _ _ _ 0 E3), <- (vget_ok _ _ _ 0 E4).
  assert (F : (if c_poly c then f + ngetValue p xi else f) == model_at st p xi cx).
  { destruct (sum_value xi cx st 0) as (r & R1 & R2). assert (r = f) by congruence. subst r. unfold model_at.
    destruct (c_poly c); rewrite R2; unfold ngetValue; cbv zeta; ring. }
  rewrite F. unfold Qdiv. ring.
Qed.

Theorem objective lay np nf s0 xs st x st' v : data_square flux err nf xs 0 = Ok s0 ->
  (forall i, In i xs -> ~ nth i err 0 * nf == 0) ->
  evaluate lay np nf s0 xs st x = Ok (st', v) ->
  exists p, unpack lay np st x = Ok (st', p) /\ v == sumQ (residual nf st' p) xs.
Proof.
  intros D _ E. unfold LbfModel.evaluate in E. apply rbind_inv in E. destruct E as ((s1, p) & E1 & E).
  apply rbind_inv in E. destruct E as (w & E2 & E). apply Ok_inj in E. injection E as E3 E4. subst s1 w.
  exists p. split; [exact E1|]. apply least_square_acc in E2. apply data_square_acc in D. rewrite E2, D. clear.
  induction xs as [|i xs IH]; [reflexivity|]. cbn [sumQ].
  set (A := sumQ _ xs) in *. clearbody A. set (B := sumQ (fun i => residual nf st' p i - _) xs) in *. clearbody B.
  set (C := sumQ (residual nf st' p) xs) in *. clearbody C. set (r := residual nf st' p i). clearbody r.
  cbv zeta. set (q := _ / _). clearbody q. lra.
Qed.
End Value.

(** *** what an evaluation depends on *)
Definition rmap {A B} (f : A -> B) (r : res A) : res B := do a <- r; Ok (f a).
Lemma mapi_map {A B A' B'} (f : nat -> A -> res B) (f' : nat -> A' -> res B') (g : A -> A') (h : B -> B') l :
  forall i, (forall i a, f' i (g a) = rmap h (f i a)) -> mapi_res f' i (map g l) = rmap (map h) (mapi_res f i l).
Proof.
  induction l as [|a l IH]; intros i H; [reflexivity|]. cbn [map mapi_res]. rewrite H, (IH (S i) H). unfold rmap.
  destruct (f i a); [|reflexivity|reflexivity]. cbn [rbind]. destruct (mapi_res f (S i) l); reflexivity.
Qed.

Definition isE (k : kind) : bool := match k with Em => true | Ab => false end.
(** the fields an evaluation overwrites are erased *)
Definition n3 (e : elt) : elt :=
  mkElt (kd e) (limit e) (lines e) (velE e) (velA e) (if c_off c then [] else offs e) (poly e) (out e) (outs e) (amps e) (stds e).
Definition n2 (e : elt) : elt :=
  mkElt (kd e) (limit e) (lines e) (if c_vel c && isE (kd e) then 0 else velE e) (if c_vel c && negb (isE (kd e)) then 0 else velA e)
        (if c_off c then [] else offs e) (poly e) (out e) (outs e) (amps e) (stds e).
Definition n1' (e : elt) : elt := with_amps (n2 e) [] [].

Lemma line_amps_same e e' A ls : kd e' = kd e -> limit e' = limit e -> forall os, line_amps e' A ls os = line_amps e A ls os.
Proof.
  intros K L. induction ls as [|l ls IH]; intros [|o os]; try reflexivity. cbn. rewrite IH.
  unfold fitted. rewrite K, L. reflexivity.
Qed.
Lemma amp_n e a S : set_amplitudes (n1' e) (Some a) S = n2 (set_amplitudes e (Some a) S).
Proof.
  unfold set_amplitudes. change (out (n1' e)) with (out e). destruct (out e); [reflexivity|].
  rewrite (line_amps_same e (n1' e)) by reflexivity. reflexivity. Qed.

Lemma unpack_norm lay np st x : unpack lay np (map n1' st) x = unpack lay np st x.
Proof.
  unfold LbfModel.unpack.
  rewrite (mapi_map (unpack_amp x) (unpack_amp x) n1' n2 st 0).
  2:{ intros i a. unfold unpack_amp. destruct (vget x i); [|reflexivity|reflexivity]. cbn [rbind rmap]. rewrite amp_n. reflexivity. }
  destruct (mapi_res (unpack_amp x) 0 st) as [s1| |]; [|reflexivity|reflexivity]. unfold rmap at 1. cbn [rbind].
  assert (H2 : (if c_vel c then mapi_res (unpack_vel c lay x) 0 (map n2 s1) else Ok (map n2 s1))
               = rmap (map n3) (if c_vel c then mapi_res (unpack_vel c lay x) 0 s1 else Ok s1)).
  { destruct (c_vel c) eqn:V.
    - apply mapi_map. intros i a. unfold unpack_vel. cbn [n2 kd]. destruct (kd a) eqn:K;
        (match goal with |- context [oget x ?o] => destruct (oget x o) end); [|reflexivity|reflexivity| |reflexivity|reflexivity];
        cbn [rbind rmap]; unfold rmap, set_velE, set_velA, n2, n3; cbn; rewrite V, K; reflexivity.
    - unfold rmap. cbn [rbind]. apply f_equal. apply map_ext. intro a. unfold n2, n3. rewrite V. reflexivity. }
  rewrite H2. clear H2. destruct (if c_vel c then mapi_res (unpack_vel c lay x) 0 s1 else Ok s1) as [s2| |]; [|reflexivity|reflexivity].
  unfold rmap at 1. cbn [rbind].
  assert (H3 : (if c_off c then do d <- oget x (iOff lay); Ok (map (fun e => shift e (d * norm_offset c)) (map n3 s2)) else Ok (map n3 s2))
               = (if c_off c then do d <- oget x (iOff lay); Ok (map (fun e => shift e (d * norm_offset c)) s2) else Ok s2)).
  { destruct (c_off c) eqn:O.
    - destruct (oget x (iOff lay)); [|reflexivity|reflexivity]. cbn [rbind]. apply f_equal. rewrite map_map. apply map_ext. intro y. reflexivity.
    - apply f_equal. rewrite <- (map_id s2) at 2. apply map_ext. intro a. unfold n3. rewrite O. destruct a; reflexivity. }
  rewrite H3. reflexivity.
Qed.

Lemma evaluate_norm lay np nf s0 xs st x : evaluate lay np nf s0 xs (map n1' st) x = evaluate lay np nf s0 xs st x.
Proof. unfold LbfModel.evaluate. rewrite unpack_norm. reflexivity. Qed.

(** the flags of the element are those of its velocities and offsets *)
Definition flagged (e : elt) : Prop :=
  outs e = line_outs outside_of (kd e) (velocity e) (lines e) (offs e) /\ out e = forallb (fun b => b) (outs e) /\
  length (offs e) = length (lines e).

Hypothesis fixed_flags : forall k l v o v' o', outside_of k l v o = outside_of k l v' o'.
Lemma outs_fixed k v v' ls : forall os os', length os = length ls -> length os' = length ls ->
  line_outs outside_of k v ls os = line_outs outside_of k v' ls os'.
Proof.
  induction ls as [|l ls IH]; intros os os' L L'; [destruct os, os'; reflexivity|].
  destruct os as [|o os]; [discriminate|]. destruct os' as [|o' os']; [discriminate|]. cbn.
  rewrite (fixed_flags k l v o v' o'). apply f_equal. apply IH; auto.
Qed.

Lemma unpack_state lay np st x st' p : unpack lay np st x = Ok (st', p) -> Forall flagged st ->
  map n1' st' = map n1' st /\ Forall flagged st'.
Proof.
  unfold LbfModel.unpack. intros E F. apply rbind_inv in E. destruct E as (s1 & E1 & E). apply rbind_inv in E. destruct E as (s2 & E2 & E).
  apply rbind_inv in E. destruct E as (s3 & E3 & E). apply rbind_inv in E. destruct E as (q & _ & E). injection E as E4 _. subst st'.
  set (ok := fun e e' : elt => n1' e' = n1' e /\ kd e' = kd e /\ lines e' = lines e /\ outs e' = outs e /\ length (offs e') = length (offs e) \/ ~ flagged e).
  assert (C : forall (R : nat -> elt -> elt -> Prop) a b, related R a b -> (forall i e e', R i e e' -> n1' e' = n1' e /\ (length (offs e) = length (lines e) -> length (offs e') = length (lines e'))) ->
    Forall (fun e => length (offs e) = length (lines e)) a -> map n1' b = map n1' a /\ Forall (fun e => length (offs e) = length (lines e)) b).
  { clear. intros R a b (L & H) W.
    assert (G : forall a b i, length b = length a -> (forall j e e', nth_error a j = Some e -> nth_error b j = Some e' -> R (i + j)%nat e e') ->
      Forall (fun e => length (offs e) = length (lines e)) a -> map n1' b = map n1' a /\ Forall (fun e => length (offs e) = length (lines e)) b).
    { clear a b L H. intro u. induction u as [|e u IH]; intros w i L H Fa; destruct w as [|e' w]; try discriminate; [split; constructor|].
      inversion Fa as [|? ? F1 F2]; subst. destruct (W _ _ _ (H 0%nat e e' eq_refl eq_refl)) as (W1 & W2).
      destruct (IH w (S i)) as (I1 & I2); [cbn in L; lia| |exact F2|].
      - intros j x y X Y. replace (S i + j)%nat with (i + S j)%nat by lia. apply H; assumption.
      - split; [cbn [map]; rewrite W1, I1; reflexivity|constructor; auto]. }
    intro Fa. apply (G a b 0%nat L); [|exact Fa]. intros j e e' X Y. destruct (H j e' Y) as (z & Z1 & Z2). assert (z = e) by congruence. subst z. exact Z2. }
  assert (F0 : Forall (fun e => length (offs e) = length (lines e)) st).
  { eapply Forall_impl; [|exact F]. intros e (_ & _ & H). exact H. }
  destruct (C _ _ _ (related_mapi _ _ _ E1)) as (A1 & B1); [|exact F0|].
  { intros i e e' H. unfold unpack_amp in H. apply rbind_inv in H. destruct H as (a & _ & H). apply Ok_inj in H. subst e'.
    unfold set_amplitudes. destruct (out e); split; try reflexivity; auto. }
  assert (A2 : map n1' s2 = map n1' s1 /\ Forall (fun e => length (offs e) = length (lines e)) s2).
  { destruct (c_vel c) eqn:V; [|apply Ok_inj in E2; subst; auto]. apply (C _ _ _ (related_mapi _ _ _ E2)); [|exact B1].
    intros i e e' H. unfold unpack_vel in H. destruct (kd e) eqn:K; apply rbind_inv in H; destruct H as (a & _ & H); apply Ok_inj in H; subst e';
      (split; [|auto]); unfold n1', n2, with_amps, set_velE, set_velA; cbn; rewrite V, K; reflexivity. }
  destruct A2 as (A2 & B2).
  assert (A3 : map n1' s3 = map n1' s2 /\ Forall (fun e => length (offs e) = length (lines e)) s3).
  { destruct (c_off c) eqn:O; [|apply Ok_inj in E3; subst; auto]. apply rbind_inv in E3. destruct E3 as (d & _ & E3). apply Ok_inj in E3. subst s3.
    apply (C _ _ _ (related_map _ _)); [|exact B2]. intros i e e' ->. split; [|intros _; cbn; apply map_length].
    unfold n1', n2, with_amps, shift, set_offs. cbn. rewrite O. reflexivity. }
  destruct A3 as (A3 & B3).
  assert (A : map n1' s3 = map n1' st) by congruence. clear - A B3 F fixed_flags.
  revert st A F. induction s3 as [|e s3 IH]; intros st A F; destruct st as [|e0 st]; try discriminate; [split; constructor|].
  inversion B3 as [|? ? L3 B3']; subst. inversion F as [|? ? F0 F']; subst. cbn [map] in A. injection A as K1 K2 K3 K4 K5 K6 K7 K8 K9 A2.
  destruct (IH B3' st A2 F') as (I1 & I2). destruct F0 as (F1 & F2 & F3).
  assert (X : line_outs outside_of (kd e) (velocity e) (lines e) (offs e) = outs e0).
  { rewrite F1, K1, K3. apply outs_fixed; [congruence|exact F3]. }
  assert (Y : n1' (prepareSupport e) = n1' e0).
  { unfold LbfModel.prepareSupport, set_out, n1', n2, with_amps. cbn. rewrite X, K1, K2, K3, K6, K7, F2.
    rewrite K1 in K4, K5. rewrite K4, K5. reflexivity. }
  cbn [map]. split; [rewrite Y, I1; reflexivity|]. constructor; [|exact I2].
  unfold flagged, LbfModel.prepareSupport, set_out. cbn. repeat apply conj; [reflexivity|reflexivity|exact L3].
Qed.

Theorem history_free lay np nf s0 xs st st1 x : Forall flagged st ->
  reached (evaluate lay np nf s0 xs) st st1 -> evaluate lay np nf s0 xs st1 x = evaluate lay np nf s0 xs st x.
Proof.
  intros F R. rewrite <- (evaluate_norm _ _ _ _ _ st1), <- (evaluate_norm _ _ _ _ _ st).
  assert (H : map n1' st1 = map n1' st /\ Forall flagged st1).
  { induction R as [|st st1 st2 x' v R IH E]; [auto|]. destruct (IH F) as (I1 & I2). unfold LbfModel.evaluate in E.
    apply rbind_inv in E. destruct E as ((s, p) & E1 & E). apply rbind_inv in E. destruct E as (w & _ & E). injection E as -> _.
    destruct (unpack_state _ _ _ _ _ _ E1 I2) as (H1 & H2). split; [congruence|exact H2]. }
  destruct H as (H & _). rewrite H. reflexivity.
Qed.
End Fit.
