(** The outcomes of the fit of a group (C94). *)
From Verif Require Import Base F64 PolyModel LbfModel LbfSpec LbfProofs LbfProofs2.
Open Scope Q_scope.

Lemma rbind_inv {A B} (r : res A) (f : A -> res B) b : rbind r f = Ok b -> exists a, r = Ok a /\ f a = Ok b.
Proof. destruct r as [a| |]; try discriminate. intro H. exists a. auto. Qed.

Lemma Ok_inj {A} (a b : A) : Ok a = Ok b -> a = b.
Proof. congruence. Qed.

Section Fit.
Context (c : conf) (axis flux cont err : list Q).
Context (outside_of : kind -> line -> Q -> Q -> bool) (profile : kind -> line -> Q -> Q -> Q -> res Q).
Context (svd : list elt -> res ((nat -> option Q * f64) * (Q * Q * Q))).
Context (solver : list (f64 * f64) -> list Q -> list (list Q * Q) -> action).
Context (width : elt -> res Q) (noise : list elt -> nat -> f64) (meanres : elt -> nat -> Q) (root : Q -> Q) (sqrtpi : Q).

Notation fit := (fit c axis flux cont err outside_of profile svd solver width noise meanres root sqrtpi).
Notation prepareSupport := (prepareSupport outside_of).
Notation minimize := (minimize c axis flux cont err outside_of profile solver).
Notation snr_loop := (snr_loop width noise meanres root sqrtpi).

(** the element after an ill-ranked fit *)
Definition ill (e : elt) : elt := let e := set_amplitudes e (Some 0) PInf in if c_poly c then set_poly e (0, 0, 0) else e.
(** the group after the linear fit *)
Definition linear (st st2 : list elt) : Prop :=
  exists r, svd (map (start_velocity c) st) = Ok r /\
            mapi_res (apply_svd c (fst r) (snd r)) 0 (map (start_velocity c) st) = Ok st2.
(** the group after the precise fit, from the state left by the evaluations and the point kept *)
Definition refined (fuel : nat) (xs : list nat) (lay : layout) (st st2 : list elt) (np : npolynom) (nf : Q) (g x : list Q) (r : list elt) : Prop :=
  exists peak ga s b0 b g0 s0 stm mo st3,
    max_flux flux xs 0 = Ok peak /\ Qeq_bool peak 0 = false /\ nf = 1 / peak /\
    (if c_poly c then make_poly axis xs else Ok (mkNPoly 0 0 0 0 0)) = Ok np /\
    amp_guess (Some nf) st2 NInf = Ok (ga, s) /\ flt s (Fin 1) = false /\
    data_square flux err nf xs 0 = Ok s0 /\
    make_bounds c lay st = Ok b0 /\ defined b0 = Ok b /\
    make_guess c lay np nf st2 ga = Ok g0 /\ defined g0 = Ok g /\
    minimize fuel lay np nf s0 xs b g [] st2 = Ok (stm, mo) /\
    x = match mo with Some x => x | None => g end /\
    store c lay np nf stm x = Ok st3 /\
    snr_loop (map prepareSupport st3) nf x 0 (map prepareSupport st3) = Ok r.

Lemma null_guess es s r : amp_guess None es s = Ok r -> snd r = s.
Proof.
  revert s r; induction es as [|e es IH]; intros s r E; cbn in E; [injection E as <-; reflexivity|].
  destruct (GetElementAmplitude e) as [a|]; try discriminate. destruct (Qeq_bool a 0); try discriminate.
  apply rbind_inv in E. destruct E as (q & E1 & E2). injection E2 as <-. cbn. apply (IH _ _ E1).
Qed.

Theorem fit_inv fuel xs st r : fit fuel xs st = Ok r ->
  exists lay, make_layout c (map kd st) = Ok lay /\ xs <> [] /\
    ((length xs < nddl lay)%nat /\ r = map ill st \/
     (nddl lay <= length xs)%nat /\
     exists st2, linear st st2 /\ (r = st2 \/ exists np nf g x, refined fuel xs lay st st2 np nf g x r)).
Proof.
  unfold LbfModel.fit. intro E. apply rbind_inv in E. destruct E as (lay & El & E). exists lay. split; [exact El|].
  destruct xs as [|i0 xs0]; [discriminate|]. set (xs := i0 :: xs0) in *. split; [discriminate|].
  destruct (Nat.ltb_spec (length xs) (nddl lay)) as [L|L].
  - left. split; [exact L|]. injection E as <-. reflexivity.
  - right. split; [exact L|].
    apply rbind_inv in E. destruct E as (np & Ep & E). apply rbind_inv in E. destruct E as (peak & Epk & E).
    apply rbind_inv in E. destruct E as (b0 & Eb & E). apply rbind_inv in E. destruct E as (q & Eq & E).
    apply rbind_inv in E. destruct E as (st2 & Es & E). exists st2. split; [exists q; auto|].
    apply rbind_inv in E. destruct E as ((ga, s) & Eg & E). cbn [fst snd] in E.
    destruct (flt s (Fin 1)) eqn:F; [left; congruence|]. right.
    destruct (Qeq_bool peak 0) eqn:Pk; [discriminate|].
    apply rbind_inv in E. destruct E as (s0 & Es0 & E). apply rbind_inv in E. destruct E as (g0 & Eg0 & E).
    apply rbind_inv in E. destruct E as (b & Eb' & E). apply rbind_inv in E. destruct E as (g & Eg' & E).
    apply rbind_inv in E. destruct E as ((stm, mo) & Em & E). cbn [fst snd] in E.
    apply rbind_inv in E. destruct E as (st3 & Es3 & E).
    exists np, (1 / peak), g, (match mo with Some x => x | None => g end).
    exists peak, ga, s, b0, b, g0, s0, stm, mo, st3. repeat apply conj; auto.
Qed.

(** ** an irregular group *)
Lemma irregular_hole st lay b : st <> [] -> ~ regular c (map kd st) -> make_layout c (map kd st) = Ok lay ->
  make_bounds c lay st = Ok b -> In None b.
Proof.
  intros N R El Eb. assert (N' : map kd st <> []) by (destruct st; [congruence|discriminate]).
  destruct (irregular_layout c _ N' R) as (extra & lay' & X & El' & Nd & Ty & Va & Ve & Io & Ip & V).
  assert (lay' = lay) by congruence. subst lay'. rewrite map_length in *. clear El'.
  unfold make_bounds in Eb. apply rbind_inv in Eb. destruct Eb as (bs & E1 & Eb).
  assert (L := mapi_len _ _ _ _ E1). set (m := length st) in *.
  apply rbind_inv in Eb. destruct Eb as (v1 & E2 & Eb).
  rewrite V, Ty, Va, Ve in Eb. apply rbind_inv in Eb. destruct Eb as (v2 & E3 & Eb).
  apply rbind_inv in E3. destruct E3 as (v2' & E3 & E4).
  apply rbind_inv in Eb. destruct Eb as (v3 & E5 & E6).
  assert (H0 : nth_error v2 (m + 2)%nat = Some None).
  { rewrite (put_hole _ _ _ _ (m + 2)%nat E4) by (intro H; injection H; lia).
    rewrite (put_hole _ _ _ _ (m + 2)%nat E3) by (intro H; injection H; lia).
    rewrite (puts_hole _ _ _ _ (m + 2)%nat E2) by lia.
    apply nth_repeat_none. rewrite Nd. unfold needed. rewrite V. lia. }
  assert (H1 : nth_error v3 (m + 2)%nat = Some None).
  { destruct (c_off c).
    - rewrite Io in E5. rewrite (put_hole _ _ _ _ (m + 2)%nat E5) by (intro H; injection H; lia). exact H0.
    - injection E5 as <-. exact H0. }
  apply (nth_error_In b (m + 2)%nat). destruct (c_poly c).
  - rewrite Ip in E6. rewrite (puts_hole _ _ _ _ (m + 2)%nat E6); [exact H1|]. left. lia.
  - injection E6 as <-. exact H1.
Qed.

Theorem irregular_never_refined fuel xs st r : ~ regular c (map kd st) -> fit fuel xs st = Ok r ->
  r = map ill st \/ linear st r.
Proof.
  intros R E. destruct (fit_inv _ _ _ _ E) as (lay & El & _ & [(_ & H)|(_ & st2 & Li & [H|H])]); [left; exact H|right; subst; exact Li|].
  exfalso. destruct H as (np & nf & g & x & peak & ga & s & b0 & b & g0 & s0 & stm & mo & st3 & H).
  destruct H as (_ & _ & _ & _ & _ & _ & _ & Eb & Db & _).
  assert (N : st <> []) by (intro; subst; discriminate El).
  rewrite (defined_hole b0) in Db; [discriminate|]. apply (irregular_hole st lay b0 N R El Eb).
Qed.

(** ** [map], [mapi_res] and the parts of an element that the fit does not change *)
Definition same_lines (e e' : elt) : Prop := kd e' = kd e /\ limit e' = limit e /\ lines e' = lines e.
Lemma sl_refl e : same_lines e e.
Proof. repeat split. Qed.
Lemma sl_trans a b d : same_lines a b -> same_lines b d -> same_lines a d.
Proof. intros (A & B & C) (D & E & F). repeat split; congruence. Qed.
Lemma sl_amps e A S : same_lines e (set_amplitudes e A S).
Proof. unfold set_amplitudes. destruct A; [destruct (out e)|]; repeat split. Qed.

(** pointwise relation between two groups *)
Definition related (R : nat -> elt -> elt -> Prop) (st st' : list elt) : Prop :=
  length st' = length st /\ forall i e', nth_error st' i = Some e' -> exists e, nth_error st i = Some e /\ R i e e'.
Lemma related_trans (R1 R2 R : nat -> elt -> elt -> Prop) a b d : (forall i x y z, R1 i x y -> R2 i y z -> R i x z) ->
  related R1 a b -> related R2 b d -> related R a d.
Proof.
  intros T (L1 & H1) (L2 & H2). split; [congruence|]. intros i z Nz. destruct (H2 i z Nz) as (y & Ny & Ry).
  destruct (H1 i y Ny) as (x & Nx & Rx). exists x. split; [exact Nx|]. eapply T; eauto.
Qed.
Lemma related_map f st : related (fun _ e e' => e' = f e) st (map f st).
Proof.
  split; [apply map_length|]. intros i e' N. rewrite nth_error_map in N. destruct (nth_error st i) as [e|] eqn:Ne; [|discriminate].
  exists e. cbn in N. injection N as <-. auto.
Qed.
Lemma related_mapi f st st' : mapi_res f 0 st = Ok st' -> related (fun i e e' => f i e = Ok e') st st'.
Proof. intro E. split; [apply (mapi_len _ _ _ _ E)|]. intros i e' N. apply (mapi_nth _ _ _ _ E _ _ N). Qed.
Lemma related_weaken (R R' : nat -> elt -> elt -> Prop) st st' : (forall i e e', R i e e' -> R' i e e') -> related R st st' -> related R' st st'.
Proof. intros H (L & P). split; [exact L|]. intros i e' N. destruct (P i e' N) as (e & Ne & Re). exists e. auto. Qed.
Lemma related_refl (R : nat -> elt -> elt -> Prop) st : (forall i e, R i e e) -> related R st st.
Proof. intro H. split; [reflexivity|]. intros i e N. exists e. auto. Qed.
Lemma related_kinds st st' : related (fun _ => same_lines) st st' -> map kd st' = map kd st.
Proof.
  revert st'; induction st as [|e st IH]; intros st' (L & H).
  - destruct st'; [reflexivity|discriminate].
  - destruct st' as [|e' st']; [discriminate|]. cbn. f_equal.
    + destruct (H 0%nat e' eq_refl) as (x & Nx & (K & _)). cbn in Nx. injection Nx as <-. exact K.
    + apply IH. split; [cbn in L; lia|]. intros i z N. destruct (H (S i) z N) as (x & Nx & Rx). exists x. auto.
Qed.
End Fit.
