(** The theorems on the fitted group (C94). *)
From Verif Require Import Base F64 PolyModel LbfModel LbfSpec LbfProofs LbfProofs2 LbfProofs3 LbfProofs4 LbfProofs5.
Open Scope Q_scope.

Lemma has_in k l : has k l = true <-> In k l.
Proof.
  unfold has. rewrite existsb_exists. split.
  - intros (x & I & E). apply same_kind_spec in E. subst. exact I.
  - intro I. exists k. split; [exact I|apply same_kind_refl].
Qed.
Lemma has_not k l : (forall x, In x l -> x <> k) -> has k l = false.
Proof. intro H. destruct (has k l) eqn:E; [|reflexivity]. apply has_in in E. destruct (H k E eq_refl). Qed.

Lemma regular_count c l t : l <> [] -> make_layout c l = Ok (canon c (length l) t) -> c_vel c = true ->
  (forall k, In k l -> t = None \/ t = Some k) -> (t = None -> In Em l /\ In Ab l) -> nk t = kinds_count l.
Proof.
  intros N _ V H B. unfold kinds_count. destruct t as [k|].
  - destruct l as [|x l']; [congruence|]. assert (X : forall y, In y (x :: l') -> y = k) by (intros y I; destruct (H y I); congruence).
    assert (Ik : In k (x :: l')) by (left; apply X; left; reflexivity).
    destruct k.
    + rewrite (proj2 (has_in Em _) Ik), has_not; [reflexivity|]. intros y I. rewrite (X y I). discriminate.
    + rewrite (proj2 (has_in Ab _) Ik), has_not; [reflexivity|]. intros y I. rewrite (X y I). discriminate.
  - destruct (B eq_refl) as (B1 & B2). rewrite (proj2 (has_in Em _) B1), (proj2 (has_in Ab _) B2). reflexivity.
Qed.

(** the number of parameters of a regular group *)
Theorem parameters c l : l <> [] -> regular c l -> exists lay, make_layout c l = Ok lay /\ nddl lay = needed c (length l) (kinds_count l) /\
  (forall n, vA lay = Some n \/ vE lay = Some n \/ iOff lay = Some n \/ iPoly lay = Some n -> (length l <= n < nddl lay)%nat).
Proof.
  intros N R. destruct (regular_layout c l N R) as (t & E & H1 & H2). exists (canon c (length l) t). split; [exact E|]. split.
  - unfold canon. cbn [nddl]. unfold needed. destruct (c_vel c) eqn:V; [|reflexivity].
    rewrite (regular_count c l t N E V (H1 eq_refl) (H2 eq_refl)). reflexivity.
  - unfold canon, needed, vel_n, off_n. cbn [nddl vA vE iOff iPoly]. intros n.
    destruct (c_vel c), (c_off c), (c_poly c), t as [[|]|]; cbn [nk];
      intros [H|[H|[H|H]]]; try discriminate; injection H as <-; lia.
Qed.

Lemma kept_fields e e' : kept e e' -> kd e' = kd e /\ lines e' = lines e /\ velE e' = velE e /\ velA e' = velA e /\ offs e' = offs e /\
  limit e' = limit e /\ out e' = out e /\ outs e' = outs e /\ poly e' = poly e.
Proof. intros ->. cbn. repeat apply conj; reflexivity. Qed.

Section Fit.
Context (c : conf) (axis flux cont err : list Q).
Context (outside_of : kind -> line -> Q -> Q -> bool) (profile : kind -> line -> Q -> Q -> Q -> res Q).
Context (svd : list elt -> res ((nat -> option Q * f64) * (Q * Q * Q))).
Context (solver : list (f64 * f64) -> list Q -> list (list Q * Q) -> action).
Context (width : elt -> res Q) (noise : list elt -> nat -> f64) (meanres : elt -> nat -> Q) (root : Q -> Q) (sqrtpi : Q).

Notation fit := (fit c axis flux cont err outside_of profile svd solver width noise meanres root sqrtpi).
Notation refined := (refined c axis flux cont err outside_of profile solver width noise meanres root sqrtpi).
Notation linear := (linear c svd).

Lemma fit_cases fuel xs st r : regular c (map kd st) -> fit fuel xs st = Ok r ->
  exists lay, make_layout c (map kd st) = Ok lay /\ nddl lay = needed c (length st) (kinds_count (map kd st)) /\
    ((length xs < nddl lay)%nat /\ r = map (ill c) st \/
     (nddl lay <= length xs)%nat /\ (linear st r \/ exists st2 np nf g x, linear st st2 /\ refined fuel xs lay st st2 np nf g x r)).
Proof.
  intros R E. destruct (fit_inv _ _ _ _ _ _ _ _ _ _ _ _ _ _ _ _ _ _ E) as (lay & El & _ & H). exists lay. split; [exact El|].
  assert (N : map kd st <> []) by (intro Q; rewrite Q in El; discriminate).
  destruct (parameters c _ N R) as (lay' & El' & Nd & _). assert (lay' = lay) by congruence. subst lay'. rewrite map_length in Nd.
  split; [exact Nd|]. destruct H as [H|(L & st2 & Li & [->|(np & nf & g & x & Rf)])]; [left; exact H| |].
  - right. split; [exact L|]. left. exact Li.
  - right. split; [exact L|]. right. exists st2, np, nf, g, x. auto.
Qed.

(** *** not enough samples *)
Theorem ill_ranked fuel xs st : regular c (map kd st) -> st <> [] -> xs <> [] ->
  (length xs < needed c (length st) (kinds_count (map kd st)))%nat ->
  exists r, fit fuel xs st = Ok r /\ length r = length st /\
    forall i e e', nth_error st i = Some e -> nth_error r i = Some e' ->
      kd e' = kd e /\ lines e' = lines e /\ velE e' = velE e /\ velA e' = velA e /\ offs e' = offs e /\
      (c_poly c = true -> poly e' = (0, 0, 0)) /\
      forall j l, inside e j -> nth_error (lines e) j = Some l -> 0 < l_nom l ->
        (exists v, nth_error (amps e') j = Some (Some v) /\ v == 0) /\ nth_error (stds e') j = Some PInf.
Proof.
  intros R N Nx L. assert (N' : map kd st <> []) by (destruct st; [congruence|discriminate]).
  destruct (parameters c _ N' R) as (lay & El & Nd & _). rewrite map_length in Nd.
  exists (map (ill c) st). split; [|split; [apply map_length|]].
  - unfold LbfModel.fit. rewrite El. cbn [rbind]. destruct xs as [|i0 xs]; [congruence|]. rewrite Nd.
    destruct (Nat.ltb_spec (length (i0 :: xs)) (needed c (length st) (kinds_count (map kd st)))) as [_|X]; [reflexivity|lia].
  - intros i e e' Ne Ne'. rewrite nth_error_map, Ne in Ne'. apply Some_inj in Ne'. subst e'.
    assert (K := kept_set e (Some 0) PInf). unfold ill. cbv zeta.
    set (e1 := set_amplitudes e (Some 0) PInf) in *.
    assert (Am : amps (if c_poly c then set_poly e1 (0, 0, 0) else e1) = amps e1) by (destruct (c_poly c); reflexivity).
    assert (Sd : stds (if c_poly c then set_poly e1 (0, 0, 0) else e1) = stds e1) by (destruct (c_poly c); reflexivity).
    destruct (kept_fields _ _ K) as (K1 & K2 & K3 & K4 & K5 & _).
    split; [destruct (c_poly c); exact K1|]. split; [destruct (c_poly c); exact K2|]. split; [destruct (c_poly c); exact K3|].
    split; [destruct (c_poly c); exact K4|]. split; [destruct (c_poly c); exact K5|]. split.
    + intro C. rewrite C. reflexivity.
    + intros j l (O & I) Nl Pos. rewrite Am, Sd. unfold e1, set_amplitudes. rewrite O. cbn [amps stds with_amps]. clear -I Nl Pos.
      revert j I Nl. generalize (outs e). induction (lines e) as [|y ls IH]; intros os j I Nl; [destruct j; discriminate|].
      destruct os as [|o os]; [destruct j; discriminate|]. destruct j as [|j]; cbn in *.
      * injection I as ->. injection Nl as ->. split.
        -- exists (fitted e 0 (l_nom l)). split; [reflexivity|]. unfold fitted.
           destruct (kd e); [ring|]. destruct (Qltb_spec 0 (limit e)) as [A|A]; cbn [andb]; [|ring].
           destruct (Qltb_spec (limit e) (0 * l_nom l)) as [B|B]; [|ring]. exfalso.
           assert (X : 0 * l_nom l == 0) by ring. rewrite X in B. lra.
        -- rewrite (proj2 (Qltb_false (l_nom l) 0)) by lra.
           destruct (Qeq_bool_spec (l_nom l) 0) as [X|X]; [exfalso; lra|reflexivity].
      * apply (IH os j I Nl).
Qed.

(** *** velocities *)
Lemma scale_bounds a b x m : 0 < m -> a / m <= x -> x <= b / m -> a <= x * m /\ x * m <= b.
Proof.
  intros M A B. assert (H : forall z, z == z / m * m) by (intro z; field; lra).
  split; [rewrite (H a)|rewrite (H b)]; apply Qmult_le_compat_r; lra.
Qed.
Lemma div_cancel a m : 0 < m -> a / m * m == a.
Proof. intro. field. lra. Qed.

Definition in_range (lo hi v : Q) : Prop := lo <= v /\ v <= hi.

Lemma point_vel x n (lo hi ini : Q) (b : list (f64 * f64)) (g : list Q) :
  0 < maxE c -> in_range lo hi ini ->
  nth_error b n = Some (Fin (lo / maxE c), Fin (hi / maxE c)) -> nth_error g n = Some (ini / maxE c) ->
  within b x \/ x = g -> forall v, nth_error x n = Some v -> in_range lo hi (v * maxE c).
Proof.
  intros M I Nb Ng [W| ->] v Nv.
  - assert (H := F2_nth _ _ _ _ _ _ W Nb Nv). cbn in H. unfold in_range. apply scale_bounds; tauto.
  - assert (v = ini / maxE c) by congruence. subst v. unfold in_range in *. rewrite (div_cancel ini) by auto. exact I.
Qed.

Theorem velocities fuel xs st r : regular c (map kd st) -> c_vel c = true -> bounded_solver solver ->
  0 < maxE c -> in_range (minE c) (maxE c) (iniE c) -> in_range (minA c) (maxA c) (iniA c) ->
  (needed c (length st) (kinds_count (map kd st)) <= length xs)%nat ->
  fit fuel xs st = Ok r ->
  exists ve va, in_range (minE c) (maxE c) ve /\ in_range (minA c) (maxA c) va /\
    forall e, In e r -> velocity e = match kd e with Em => ve | Ab => va end.
Proof.
  intros R V B M IE IA L E. destruct (fit_cases _ _ _ _ R E) as (lay & El & Nd & [(X & _)|(_ & [Li|(st2 & np & nf & g & x & Li & Rf)])]); [lia| |].
  - exists (iniE c), (iniA c). split; [exact IE|]. split; [exact IA|]. intros e I.
    destruct (linear_related _ _ _ _ Li) as (q & _ & (Ll & H)). apply In_nth_error in I. destruct I as (i & Ni).
    destruct (H i e Ni) as (e0 & Ne & ->). cbv zeta.
    set (e1 := set_amplitudes (start_velocity c e0) (fst (fst q i)) (snd (fst q i))).
    assert (K := kept_set (start_velocity c e0) (fst (fst q i)) (snd (fst q i))). fold e1 in K.
    assert (G : forall b : bool, velocity (if b then set_poly e1 (snd q) else e1) = velocity e1 /\ kd (if b then set_poly e1 (snd q) else e1) = kd e1)
      by (intros [|]; split; reflexivity).
    destruct (G (c_poly c)) as (-> & ->). rewrite K. unfold velocity, start_velocity. cbn. destruct (kd e0) eqn:Kd; cbn; rewrite Kd; reflexivity.
  - assert (F := refined_final _ _ _ _ _ _ _ _ _ _ _ _ _ _ _ _ _ _ _ _ _ _ _ _ Li Rf).
    destruct (refined_point _ _ _ _ _ _ _ _ _ _ _ _ _ _ _ _ _ _ _ _ _ _ _ _ R El Li Rf) as
      (t & bs & ga & e0 & rest & peak & -> & Ty & Bs & Lb & Pn & Nf & Pp & Pk & Lg & E2 & Hg & Gx & Px).
    set (b := params c t bs (velA_bound c) (velE_bound c) (off_bound c) (repeat (NInf, PInf) 3)) in *.
    assert (W : within b x \/ x = g). { destruct Px as [(h & D)|(D & _)]; [left; apply (B _ _ _ _ D)|right; exact D]. }
    assert (HA : forall n v, vA (canon c (length st) t) = Some n -> nth_error x n = Some v -> in_range (minA c) (maxA c) (v * maxE c)).
    { intros n v Hn Hv. apply (point_vel x n (minA c) (maxA c) (iniA c) b g M IA); auto.
      - unfold b. rewrite <- Lb in Hn. rewrite (nth_params_vA c t bs _ _ _ _ n Hn). reflexivity.
      - rewrite Gx. rewrite <- Lg in Hn. apply (nth_params_vA c t ga _ _ _ _ n Hn). }
    assert (HE : forall n v, vE (canon c (length st) t) = Some n -> nth_error x n = Some v -> in_range (minE c) (maxE c) (v * maxE c)).
    { intros n v Hn Hv. apply (point_vel x n (minE c) (maxE c) (iniE c) b g M IE); auto.
      - unfold b. rewrite <- Lb in Hn. rewrite (nth_params_vE c t bs _ _ _ _ n Hn). reflexivity.
      - rewrite Gx. rewrite <- Lg in Hn. apply (nth_params_vE c t ga _ _ _ _ n Hn). }
    set (lay := canon c (length st) t) in *.
    exists (match oget x (vE lay) with Ok v => v * maxE c | _ => iniE c end),
           (match oget x (vA lay) with Ok v => v * maxE c | _ => iniA c end).
    split; [|split].
    + destruct (vE lay) as [n|] eqn:Hn; cbn [oget]; [|exact IE]. unfold vget. destruct (nth_error x n) as [v|] eqn:Hv; [|exact IE]. eapply HE; eauto.
    + destruct (vA lay) as [n|] eqn:Hn; cbn [oget]; [|exact IA]. unfold vget. destruct (nth_error x n) as [v|] eqn:Hv; [|exact IA]. eapply HA; eauto.
    + intros e I. apply In_nth_error in I. destruct I as (i & Ni). destruct F as (_ & F). destruct (F i e Ni) as (eo & Neo & (S & _ & Vv & _)).
      specialize (Vv V). unfold vel_of in Vv. unfold velocity.
      assert (Kk : kd e = kd eo) by (apply S). assert (Tt := Ty V eo (nth_error_In _ _ Neo)). rewrite <- Kk in Tt.
      assert (Lt : ltype lay = t) by (unfold lay, canon; cbn [ltype]; rewrite V; reflexivity). rewrite Lt in Vv.
      destruct t as [k|].
      * destruct Tt as [Tt|Tt]; [discriminate|]. injection Tt as ->. destruct (kd e); destruct Vv as (a & -> & ->); reflexivity.
      * destruct (kd e); destruct Vv as (a & -> & ->); reflexivity.
Qed.
End Fit.
