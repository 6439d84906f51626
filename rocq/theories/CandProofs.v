From Coq Require Import String.
From Verif Require Import Base RangeModel SortLib CandModel CandSpec.
Open Scope Q_scope.

Lemma Qmaxb_case a b : (b <= a /\ Qmaxb a b = a) \/ (a <= b /\ Qmaxb a b = b).
Proof. unfold Qmaxb. destruct (Qltb_spec a b) as [H|H]; [right|left]; split; auto; lra. Qed.
Lemma Qminb_case a b : (a <= b /\ Qminb a b = a) \/ (b <= a /\ Qminb a b = b).
Proof. unfold Qminb. destruct (Qltb_spec b a) as [H|H]; [right|left]; split; auto; lra. Qed.
Lemma Qmax_case' a b : (b <= a /\ Qmax a b == a) \/ (a <= b /\ Qmax a b == b).
Proof. destruct (Q.max_spec_le a b) as [[H E]|[H E]]; [right|left]; split; auto. Qed.
Lemma Qmin_case' a b : (a <= b /\ Qmin a b == a) \/ (b <= a /\ Qmin a b == b).
Proof. destruct (Q.min_spec_le a b) as [[H E]|[H E]]; [left|right]; split; auto. Qed.

(** a fixed candidate inside the pdf range *)
Definition ready (pdf : range) (c : cand) : Prop := rbeg pdf <= cz c /\ cz c <= rend pdf /\ 0 < cdz c.

Lemma initRange_spec pdf c : ready pdf c ->
  rbeg (initRange pdf c) == window_begin pdf c /\ rend (initRange pdf c) == window_end pdf c.
Proof.
  intros [H1 [H2 H3]]. unfold initRange, IntersectWith, Intersect, HasIntersection, halfWidth, window_begin, window_end. simpl.
  destruct (Qmaxb_case (cz c - 3 * cdz c) (rbeg pdf)) as [[A ->]|[A ->]];
  destruct (Qminb_case (cz c + 3 * cdz c) (rend pdf)) as [[B ->]|[B ->]];
  destruct (Qmax_case' (cz c - 3 * cdz c) (rbeg pdf)) as [[C ->]|[C ->]];
  destruct (Qmin_case' (cz c + 3 * cdz c) (rend pdf)) as [[D ->]|[D ->]];
  match goal with |- context [Qle_bool ?x ?y] => destruct (Qle_bool x y) eqn:E;
    [|exfalso; assert (X : ~ x <= y) by (intro X; apply Qle_bool_iff in X; congruence); lra] end;
  simpl; split; lra.
Qed.

(** windows are bounded by the pdf and contain the redshift *)
Lemma window_bounds pdf c : ready pdf c ->
  window_begin pdf c <= cz c /\ cz c <= window_end pdf c /\ rbeg pdf <= window_begin pdf c /\ window_end pdf c <= rend pdf.
Proof.
  intros [H1 [H2 H3]]. unfold window_begin, window_end.
  destruct (Qmax_case' (cz c - 3 * cdz c) (rbeg pdf)) as [[C ->]|[C ->]];
  destruct (Qmin_case' (cz c + 3 * cdz c) (rend pdf)) as [[D ->]|[D ->]]; repeat split; lra.
Qed.

Lemma ratio_small_spec ov s : 0 < ov -> 0 <= s -> (ratio_small ov s = true <-> ov < OVERLAP_THRESHOLD * s).
Proof.
  intros H Hs. unfold ratio_small. destruct (Qeq_bool s 0) eqn:E.
  - apply Qeq_bool_iff in E. split; [discriminate|]. intro X. rewrite E in X. unfold OVERLAP_THRESHOLD in X. lra.
  - assert (Hs0 : 0 < s).
    { assert (~ s == 0) by (intro X; apply Qeq_bool_iff in X; congruence).
      destruct (Qlt_le_dec 0 s); [assumption|exfalso; apply H0; lra]. }
    assert (X : ov / s * s == ov) by (field; lra).
    destruct (Qltb_spec (ov / s) OVERLAP_THRESHOLD) as [K|K]; split; intro Y; try discriminate; auto.
    + rewrite <- X. apply Qmult_lt_compat_r; assumption.
    + exfalso. apply K. apply Qlt_shift_div_r; [exact Hs0|]. exact Y.
Qed.

Definition fresh (pdf : range) (x : cand * range) : Prop :=
  ready pdf (fst x) /\ rbeg (snd x) == window_begin pdf (fst x) /\ rend (snd x) == window_end pdf (fst x).
(** the upper part may have been trimmed *)
Definition half_done (pdf : range) (x : cand * range) : Prop :=
  ready pdf (fst x) /\ rbeg (snd x) == window_begin pdf (fst x) /\
  cz (fst x) <= rend (snd x) /\ rend (snd x) <= window_end pdf (fst x).
Definition done (pdf : range) (x : cand * range) : Prop :=
  window_begin pdf (fst x) <= rbeg (snd x) /\ rbeg (snd x) <= cz (fst x) /\
  cz (fst x) <= rend (snd x) /\ rend (snd x) <= window_end pdf (fst x).

Lemma fresh_half pdf x : fresh pdf x -> half_done pdf x.
Proof. intros [H [H1 H2]]. destruct (window_bounds pdf _ H) as [A [B _]]. split; [exact H|]. split; [exact H1|]. split; lra. Qed.
Lemma half_done_done pdf x : half_done pdf x -> done pdf x.
Proof.
  intros [H [H1 [H2 H3]]]. destruct (window_bounds pdf _ H) as [A [B _]]. unfold done. repeat split; lra.
Qed.

Lemma trim_step_spec pdf h l h' l' d : half_done pdf h -> fresh pdf l -> cz (fst l) <= cz (fst h) ->
  trim_step h l = (h', l', d) ->
  fst h' = fst h /\ fst l' = fst l /\ done pdf h' /\ rend (snd h') = rend (snd h) /\ half_done pdf l' /\
  ((d = [] /\ rend (snd l') <= rbeg (snd h')) \/
   (h' = h /\ l' = l /\ rbeg (snd h) < rend (snd l) /\
    ((d = [cid (fst h)] /\ cval (fst h) < cval (fst l)) \/ (d = [cid (fst l)] /\ cval (fst l) <= cval (fst h))) /\
    ~ (rend (snd l) - rbeg (snd h) < OVERLAP_THRESHOLD * (rend (snd h) - rbeg (snd h)) /\
       rend (snd l) - rbeg (snd h) < OVERLAP_THRESHOLD * (rend (snd l) - rbeg (snd l))))) /\
  (rend (snd l) <= rbeg (snd h) -> h' = h /\ l' = l /\ d = []).
Proof.
  destruct h as [ch rh], l as [cl rl]. unfold trim_step. cbn [fst snd].
  intros Hh Hl Hz.
  pose proof (half_done_done _ _ Hh) as Dh. pose proof (fresh_half _ _ Hl) as Dl.
  destruct (Qle_bool (rend rl - rbeg rh) 0) eqn:E0.
  { apply Qle_bool_iff in E0. intro H; injection H as <- <- <-. cbn [fst snd].
    do 3 (split; [solve [reflexivity|assumption]|]). split; [reflexivity|]. split; [exact Dl|].
    split; [left; split; [reflexivity|lra]|auto]. }
  assert (Ov : 0 < rend rl - rbeg rh).
  { destruct (Qlt_le_dec 0 (rend rl - rbeg rh)) as [X|X]; [exact X|]. apply Qle_bool_iff in X. congruence. }
  pose proof Dh as [h1 [h2 [h3 h4]]]. cbn [fst snd] in *.
  destruct (half_done_done _ _ Dl) as [l1 [l2 [l3 l4]]]. cbn [fst snd] in *.
  assert (Sh : 0 <= rend rh - rbeg rh) by lra. assert (Sl : 0 <= rend rl - rbeg rl) by lra.
  destruct (ratio_small (rend rl - rbeg rh) (rend rh - rbeg rh) && ratio_small (rend rl - rbeg rh) (rend rl - rbeg rl)) eqn:E1.
  - apply andb_prop in E1. destruct E1 as [E1 E2]. apply ratio_small_spec in E1; auto. apply ratio_small_spec in E2; auto.
    intro H; injection H as <- <- <-. cbn [fst snd rbeg rend].
    destruct Hh as [[p1 [p2 p3]] [Hb [Hc He]]]. destruct Hl as [[q1 [q2 q3]] [Lb Le]]. cbn [fst snd] in *.
    assert (Mid : cz cl <= rend rl - (1 # 2) * (rend rl - rbeg rh) /\ rend rl - (1 # 2) * (rend rl - rbeg rh) <= cz ch).
    { unfold OVERLAP_THRESHOLD in *. unfold window_begin, window_end in *.
      destruct (Qmax_case' (cz ch - 3 * cdz ch) (rbeg pdf)) as [[m1 w1]|[m1 w1]];
      destruct (Qmin_case' (cz ch + 3 * cdz ch) (rend pdf)) as [[m2 w2]|[m2 w2]];
      destruct (Qmax_case' (cz cl - 3 * cdz cl) (rbeg pdf)) as [[m3 w3]|[m3 w3]];
      destruct (Qmin_case' (cz cl + 3 * cdz cl) (rend pdf)) as [[m4 w4]|[m4 w4]];
      rewrite ?w1, ?w2, ?w3, ?w4 in *; split; lra. }
    destruct Mid as [M1 M2].
    split; [reflexivity|]. split; [reflexivity|].
    split; [unfold done; cbn [fst snd rbeg rend]; repeat split; lra|]. split; [reflexivity|].
    split; [unfold half_done, ready; cbn [fst snd rbeg rend]; repeat split; lra|].
    split; [left; split; [reflexivity|lra]|]. intro X. exfalso. lra.
  - intro H; injection H as <- <- <-. cbn [fst snd].
    do 3 (split; [solve [reflexivity|assumption]|]). split; [reflexivity|]. split; [exact Dl|].
    split; [|intro X; exfalso; lra]. right. split; [reflexivity|]. split; [reflexivity|]. split; [lra|]. split.
    + destruct (Qltb_spec (cval ch) (cval cl)) as [V|V]; [left|right]; split; auto; lra.
    + intros [X Y]. apply ratio_small_spec in X; auto. apply ratio_small_spec in Y; auto. rewrite X, Y in E1. discriminate.
Qed.

(** consecutive elements of the result *)
Definition pair_ok (pdf : range) (dups : list string) (x y : cand * range) : Prop :=
  rend (snd y) <= rbeg (snd x) \/
  (window_begin pdf (fst x) < window_end pdf (fst y) /\
   ((In (cid (fst x)) dups /\ cval (fst x) < cval (fst y)) \/ (In (cid (fst y)) dups /\ cval (fst y) <= cval (fst x)))).

Fixpoint consecutive {A} (P : A -> A -> Prop) (l : list A) : Prop :=
  match l with x :: ((y :: _) as t) => P x y /\ consecutive P t | _ => True end.

Lemma consecutive_impl {A} (P Q : A -> A -> Prop) l : (forall x y, P x y -> Q x y) -> consecutive P l -> consecutive Q l.
Proof. intro H. induction l as [|x [|y t] IH]; simpl; auto. intros [H1 H2]. split; [auto|apply IH, H2]. Qed.
Lemma consecutive_nth {A} (P : A -> A -> Prop) l i x y : consecutive P l -> nth_error l i = Some x ->
  nth_error l (S i) = Some y -> P x y.
Proof.
  revert i; induction l as [|a [|b t] IH]; intros i H Hx Hy.
  - destruct i; discriminate.
  - destruct i as [|[|i]]; discriminate.
  - destruct H as [H1 H2]. destruct i as [|i]; simpl in *.
    + injection Hx as <-. injection Hy as <-. exact H1.
    + apply (IH i); auto.
Qed.

Lemma trim_from_spec pdf rest h out dups : half_done pdf h -> Forall (fresh pdf) rest ->
  consecutive (fun x y => cz (fst y) <= cz (fst x)) (h :: rest) ->
  trim_from h rest = (out, dups) ->
  (exists h' t', out = h' :: t' /\ fst h' = fst h /\ rend (snd h') = rend (snd h)) /\
  map fst out = map fst (h :: rest) /\ Forall (done pdf) out /\ consecutive (pair_ok pdf dups) out /\
  (forall id, In id dups -> dup_reason pdf out id) /\
  (consecutive (fun x y => rend (snd y) <= rbeg (snd x)) (h :: rest) -> out = h :: rest /\ dups = []).
Proof.
  revert h out dups; induction rest as [|l rest IH]; intros h out dups Hh Hr Hz E.
  - simpl in E. injection E as <- <-. split; [exists h, []; auto|]. split; [reflexivity|].
    split; [constructor; [apply half_done_done; exact Hh|constructor]|]. split; [exact I|]. split; [intros id []|auto].
  - cbn [trim_from] in E. destruct (trim_step h l) as [[h1 l1] d] eqn:E1.
    destruct (trim_from l1 rest) as [t ds] eqn:E2. injection E as <- <-.
    inversion Hr as [|? ? Fl Fr]; subst. destruct Hz as [Hz1 Hz2].
    destruct (trim_step_spec pdf h l h1 l1 d Hh Fl Hz1 E1) as [A1 [A2 [A3 [A4 [A5 [A6 A7]]]]]].
    assert (Hz2' : consecutive (fun x y => cz (fst y) <= cz (fst x)) (l1 :: rest)).
    { destruct rest as [|r rest']; [exact I|]. destruct Hz2 as [Z1 Z2]. split; [rewrite A2; exact Z1|exact Z2]. }
    destruct (IH l1 t ds A5 Fr Hz2' E2) as [[l2 [t' [-> [B1 B2]]]] [B3 [B4 [B5 [B6 B7]]]]].
    split; [exists h1, (l2 :: t'); auto|].
    split; [cbn [map] in *; rewrite A1, B3, A2; reflexivity|].
    split; [constructor; assumption|].
    split; [|split].
    + change (pair_ok pdf (d ++ ds)%list h1 l2 /\ consecutive (pair_ok pdf (d ++ ds)%list) (l2 :: t')). split.
      * unfold pair_ok. destruct A6 as [[-> Sep]|[-> [-> [Ov [D _]]]]].
        -- left. rewrite B2. exact Sep.
        -- right. rewrite B1. split.
           ++ destruct Hh as [_ [Hb _]]. destruct Fl as [_ [_ Le]]. rewrite <- Hb, <- Le. exact Ov.
           ++ destruct D as [[-> V]|[-> V]]; [left|right]; (split; [left; reflexivity|exact V]).
      * eapply consecutive_impl; [|exact B5]. intros x y [S|[W [[I V]|[I V]]]]; [left; exact S|right|right];
          (split; [exact W|]); [left|right]; (split; [apply in_or_app; right; exact I|exact V]).
    + intros id Hid. apply in_app_or in Hid. destruct Hid as [Hid|Hid].
      * destruct A6 as [[-> _]|[-> [-> [Ov [D _]]]]]; [destruct Hid|].
        exists O, h, l2. split; [reflexivity|]. split; [reflexivity|]. rewrite B1. split.
        -- destruct Hh as [_ [Hb _]]. destruct Fl as [_ [_ Le]]. rewrite <- Hb, <- Le. exact Ov.
        -- destruct D as [[-> V]|[-> V]]; destruct Hid as [<-|[]]; [left|right]; auto.
      * destruct (B6 id Hid) as [i [x [y [X [Y R]]]]]. exists (S i), x, y. auto.
    + intros [S1 S2]. destruct (A7 S1) as [-> [-> ->]]. destruct (B7 S2) as [X ->]. rewrite X. auto.
Qed.

(** separation along a run of kept candidates *)
Lemma kept_separated pdf dups out : Forall (done pdf) out -> consecutive (pair_ok pdf dups) out ->
  forall n i x y, nth_error out i = Some x -> nth_error out (i + S n) = Some y ->
    (forall k z, (i <= k <= i + S n)%nat -> nth_error out k = Some z -> kept dups (fst z)) ->
    rend (snd y) <= rbeg (snd x).
Proof.
  intros HD HC. induction n as [|n IH]; intros i x y Hx Hy Hk.
  - replace (i + 1)%nat with (S i) in * by lia.
    destruct (consecutive_nth _ _ _ _ _ HC Hx Hy) as [S|[_ [[I _]|[I _]]]]; [exact S| |].
    + exfalso. apply (Hk i x); [lia|exact Hx|exact I].
    + exfalso. apply (Hk (S i) y); [lia|exact Hy|exact I].
  - destruct (nth_error out (i + S n)) as [w|] eqn:Hw.
    2:{ apply nth_error_None in Hw. assert (i + S (S n) < length out)%nat by (apply nth_error_Some; congruence). lia. }
    assert (S1 : rend (snd w) <= rbeg (snd x)) by (apply (IH i x w Hx Hw); intros k z K; apply Hk; lia).
    assert (S2 : rend (snd y) <= rbeg (snd w)).
    { replace (i + S (S n))%nat with (S (i + S n)) in Hy by lia.
      destruct (consecutive_nth _ _ _ _ _ HC Hw Hy) as [S|[_ [[I _]|[I _]]]]; [exact S| |].
      - exfalso. apply (Hk (i + S n)%nat w); [lia|exact Hw|exact I].
      - exfalso. apply (Hk (S (i + S n)) y); [lia|exact Hy|exact I]. }
    rewrite Forall_forall in HD. destruct (HD w (nth_error_In _ _ Hw)) as [_ [W1 [W2 _]]]. lra.
Qed.

Lemma fix_dz_ready dz pdf c : usable dz pdf c -> ready pdf (fix_dz dz c).
Proof.
  intros [H1 [H2 H3]]. unfold fix_dz. destruct (Qeq_bool (cdz c) (-1)) eqn:E.
  - apply Qeq_bool_iff in E. destruct H3 as [H3|[H3 [H4 H5]]]; [exfalso; lra|].
    unfold ready; simpl. repeat split; auto. nra.
  - destruct H3 as [H3|[H3 _]]; [unfold ready; auto|]. exfalso. apply Qeq_bool_iff in H3. congruence.
Qed.

Lemma consecutive_of_sorted {A} (P : A -> A -> Prop) l :
  (forall i x y, nth_error l i = Some x -> nth_error l (S i) = Some y -> P x y) -> consecutive P l.
Proof.
  induction l as [|a [|b t] IH]; intro H; simpl; auto. split; [apply (H O); reflexivity|].
  apply IH. intros i x y Hx Hy. apply (H (S i)); assumption.
Qed.

Theorem ranges_spec keysort dz pdf cs : sorts_by_z keysort -> cs <> [] -> (forall c, In c cs -> usable dz pdf c) ->
  exists out dups, SetIntegrationRanges keysort dz pdf cs = Ok (out, dups) /\
    map fst out = keysort (map (fix_dz dz) cs) /\
    (forall c r, In (c, r) out -> window_begin pdf c <= rbeg r /\ rbeg r <= cz c /\ cz c <= rend r /\ rend r <= window_end pdf c) /\
    (forall i j x y, (i < j)%nat -> nth_error out i = Some x -> nth_error out j = Some y ->
       (forall k z, (i <= k <= j)%nat -> nth_error out k = Some z -> kept dups (fst z)) ->
       rend (snd y) <= rbeg (snd x)) /\
    (forall id, In id dups -> dup_reason pdf out id) /\
    ((forall i x y, nth_error out i = Some x -> nth_error out (S i) = Some y ->
        window_end pdf (fst y) <= window_begin pdf (fst x)) ->
     dups = [] /\ forall c r, In (c, r) out -> rbeg r == window_begin pdf c /\ rend r == window_end pdf c).
Proof.
  intros Hs Hne Hu. unfold SetIntegrationRanges. destruct (Hs (map (fix_dz dz) cs)) as [Hp Hd].
  set (ks := keysort (map (fix_dz dz) cs)) in *.
  assert (Rd : forall c, In c ks -> ready pdf c).
  { intros c Hc. apply (Permutation_in _ Hp) in Hc. apply in_map_iff in Hc. destruct Hc as [c0 [<- H0]]. apply fix_dz_ready, Hu, H0. }
  assert (Fr : Forall (fresh pdf) (map (fun c => (c, initRange pdf c)) ks)).
  { apply Forall_forall. intros x Hx. apply in_map_iff in Hx. destruct Hx as [c [<- Hc]].
    split; [apply Rd; exact Hc|]. apply initRange_spec, Rd, Hc. }
  assert (Zs : consecutive (fun x y => cz (fst y) <= cz (fst x)) (map (fun c => (c, initRange pdf c)) ks)).
  { apply consecutive_of_sorted. intros i x y Hx Hy. rewrite nth_error_map in Hx, Hy.
    destruct (nth_error ks i) as [a|] eqn:A; [|discriminate]. destruct (nth_error ks (S i)) as [b|] eqn:B; [|discriminate].
    injection Hx as <-. injection Hy as <-. simpl. apply (Hd i (S i)); auto. }
  assert (Mf : map fst (map (fun c => (c, initRange pdf c)) ks) = ks).
  { rewrite map_map. simpl. apply map_id. }
  destruct (map (fun c => (c, initRange pdf c)) ks) as [|h t] eqn:Em.
  { exfalso. apply Hne. apply (f_equal (@length _)) in Em. rewrite map_length in Em. simpl in Em.
    apply Permutation_length in Hp. fold ks in Hp. rewrite map_length in Hp. destruct cs; [reflexivity|simpl in *; lia]. }
  inversion Fr as [|? ? Fh Ft]; subst.
  destruct (trim_from h t) as [out dups] eqn:E.
  destruct (trim_from_spec pdf t h out dups (fresh_half _ _ Fh) Ft Zs E) as [_ [B3 [B4 [B5 [B6 B7]]]]].
  assert (Chk : range_check dups out = true).
  { unfold range_check. apply forallb_forall. intros x Hx. apply orb_true_iff. right.
    rewrite Forall_forall in B4. destruct (B4 x Hx) as [_ [D2 [D3 _]]]. unfold outside_own.
    destruct (Qltb_spec (cz (fst x)) (rbeg (snd x))) as [K|K]; [lra|].
    destruct (Qltb_spec (rend (snd x)) (cz (fst x))) as [L|L]; [lra|]. reflexivity. }
  rewrite Chk. exists out, dups. split; [reflexivity|]. split; [rewrite B3; exact Mf|].
  split; [intros c r Hin; rewrite Forall_forall in B4; apply (B4 (c, r) Hin)|].
  split.
  { intros i j x y Hij Hx Hy Hk. replace j with (i + S (j - i - 1))%nat in Hy, Hk by lia.
    eapply (kept_separated pdf dups out B4 B5); eauto. }
  split; [exact B6|]. intro Sep.
  assert (Sep' : consecutive (fun x y => rend (snd y) <= rbeg (snd x)) (h :: t)).
  { apply consecutive_of_sorted. intros i x y Hx Hy.
    assert (Ex : exists x', nth_error out i = Some x' /\ fst x' = fst x).
    { assert (nth_error (map fst out) i = Some (fst x)) by (rewrite B3, nth_error_map, Hx; reflexivity).
      rewrite nth_error_map in H. destruct (nth_error out i) as [x'|]; [|discriminate]. injection H as H. exists x'; auto. }
    assert (Ey : exists y', nth_error out (S i) = Some y' /\ fst y' = fst y).
    { assert (nth_error (map fst out) (S i) = Some (fst y)) by (rewrite B3, nth_error_map, Hy; reflexivity).
      rewrite nth_error_map in H. destruct (nth_error out (S i)) as [y'|]; [|discriminate]. injection H as H. exists y'; auto. }
    destruct Ex as [x' [X1 X2]]. destruct Ey as [y' [Y1 Y2]]. specialize (Sep i x' y' X1 Y1). rewrite X2, Y2 in Sep.
    rewrite Forall_forall in Fr. destruct (Fr x (nth_error_In _ _ Hx)) as [_ [Xb _]]. destruct (Fr y (nth_error_In _ _ Hy)) as [_ [_ Ye]].
    lra. }
  destruct (B7 Sep') as [-> ->]. split; [reflexivity|]. intros c r Hin. rewrite Forall_forall in Fr. apply (Fr (c, r) Hin).
Qed.

(** ** ranking *)
Definition sum_lt (a b : cand) : bool := Qltb (csum a) (csum b).
Lemma filter_rev {A} (p : A -> bool) l : filter p (rev l) = rev (filter p l).
Proof.
  induction l as [|a l IH]; [reflexivity|]. simpl. rewrite filter_app, IH. simpl. destruct (p a); simpl; [reflexivity|apply app_nil_r].
Qed.
Lemma StronglySorted_nth {A} (R : A -> A -> Prop) l i j x y : StronglySorted R l -> (i < j)%nat ->
  nth_error l i = Some x -> nth_error l j = Some y -> R x y.
Proof.
  intro H; revert i j; induction H as [|a l Hl IH Hf]; intros i j Hij Hx Hy; [destruct i; discriminate|].
  destruct j as [|j]; [lia|]. simpl in Hy. destruct i as [|i]; simpl in Hx.
  - injection Hx as <-. rewrite Forall_forall in Hf. apply Hf. eapply nth_error_In; eauto.
  - apply (IH i j); auto; lia.
Qed.
Lemma nth_error_rev {A} (l : list A) i : (i < length l)%nat -> nth_error (rev l) i = nth_error l (length l - 1 - i).
Proof.
  intro H. destruct l as [|d l0]; [simpl in H; lia|]. set (l := d :: l0) in *.
  rewrite (nth_error_nth' (rev l) d) by (rewrite rev_length; exact H).
  rewrite (nth_error_nth' l d) by lia. f_equal. rewrite rev_nth by exact H. f_equal. lia.
Qed.
Theorem rank_spec cs :
  Permutation (SortByValSumProbaInt cs) cs /\
  (forall i j a b, (i < j)%nat -> nth_error (SortByValSumProbaInt cs) i = Some a ->
     nth_error (SortByValSumProbaInt cs) j = Some b -> csum b <= csum a) /\
  (forall v, filter (fun c => Qeq_bool (csum c) v) (SortByValSumProbaInt cs) = filter (fun c => Qeq_bool (csum c) v) cs).
Proof.
  unfold SortByValSumProbaInt. fold sum_lt. set (s := isort sum_lt (rev cs)).
  assert (P : Permutation s (rev cs)) by apply isort_perm. split; [|split].
  - exact (perm_trans (Permutation_sym (Permutation_rev s)) (perm_trans P (Permutation_sym (Permutation_rev cs)))).
  - intros i j a b Hij Ha Hb.
    assert (Lj : (j < length s)%nat) by (rewrite <- (rev_length s); apply nth_error_Some; congruence).
    rewrite nth_error_rev in Ha, Hb by lia.
    assert (S : lesorted sum_lt s).
    { apply isort_sorted; unfold sum_lt.
      - intros x y H. apply Qltb_true in H. apply Qltb_false. lra.
      - intros x y z H1 H2. apply Qltb_false in H1, H2. apply Qltb_false. lra. }
    pose proof (StronglySorted_nth _ s (length s - 1 - j) (length s - 1 - i) b a S ltac:(lia) Hb Ha) as H.
    unfold sum_lt in H. apply Qltb_false in H. exact H.
  - intro v.
    assert (E : forall l, filter (fun c => Qeq_bool (csum c) v) l = filter (eqv sum_lt (mkCand "" 0 0 0 v)) l).
    { intro l. apply filter_ext. intro c. unfold eqv, sum_lt. simpl.
      destruct (Qltb_spec v (csum c)) as [A|A]; destruct (Qltb_spec (csum c) v) as [B|B]; simpl;
        destruct (Qeq_bool (csum c) v) eqn:Q; auto; try (apply Qeq_bool_iff in Q; exfalso; lra).
      exfalso. assert (~ csum c == v) by (intro X; apply Qeq_bool_iff in X; congruence). apply H; lra. }
    rewrite !E, filter_rev. unfold s. rewrite isort_stable.
    + rewrite filter_rev, rev_involutive. reflexivity.
    + unfold sum_lt. intros k x y H1 H2 H3 H4. apply Qltb_false in H1, H2, H3, H4. apply Qltb_false. lra.
Qed.

(** duplicates end after every candidate with a positive integral *)
Lemma in_existsb id dups : existsb (String.eqb id) dups = true <-> In id dups.
Proof.
  rewrite existsb_exists. split.
  - intros [x [Hx E]]. apply String.eqb_eq in E. congruence.
  - intro H. exists id. split; [exact H|apply String.eqb_refl].
Qed.
Theorem duplicates_last dups sum cs : (forall c, 0 < sum c) ->
  forall i j a b, (i < j)%nat -> nth_error (SortByValSumProbaInt (assign_sums dups sum cs)) i = Some a ->
     nth_error (SortByValSumProbaInt (assign_sums dups sum cs)) j = Some b -> In (cid a) dups -> In (cid b) dups.
Proof.
  intros Hs i j a b Hij Ha Hb Da.
  destruct (rank_spec (assign_sums dups sum cs)) as [P [D _]].
  pose proof (D i j a b Hij Ha Hb) as L.
  assert (Ia : In a (assign_sums dups sum cs)) by (eapply Permutation_in; [exact P|eapply nth_error_In; eauto]).
  assert (Ib : In b (assign_sums dups sum cs)) by (eapply Permutation_in; [exact P|eapply nth_error_In; eauto]).
  unfold assign_sums in Ia, Ib. apply in_map_iff in Ia, Ib. destruct Ia as [a0 [<- _]]. destruct Ib as [b0 [<- _]].
  simpl in *. apply in_existsb in Da. rewrite Da in L. destruct (existsb (String.eqb (cid b0)) dups) eqn:E.
  - apply in_existsb, E.
  - specialize (Hs b0). lra.
Qed.

Lemma isort_by_z : sorts_by_z (fun l => isort (fun a b => Qltb (cz b) (cz a)) l).
Proof.
  intro l. split; [apply isort_perm|]. intros i j a b Hij Ha Hb.
  assert (L : lesorted (fun a b => Qltb (cz b) (cz a)) (isort (fun a b => Qltb (cz b) (cz a)) l)).
  { apply isort_sorted.
    - intros x y H. apply Qltb_true in H. apply Qltb_false. lra.
    - intros x y z H1 H2. apply Qltb_false in H1, H2. apply Qltb_false. lra. }
  pose proof (StronglySorted_nth _ _ i j a b L Hij Ha Hb) as H. simpl in H. apply Qltb_false in H. exact H.
Qed.

Lemma no_candidate keysort dz pdf : sorts_by_z keysort -> SetIntegrationRanges keysort dz pdf [] = UB.
Proof.
  intro Hs. unfold SetIntegrationRanges. simpl. destruct (Hs []) as [P _]. apply Permutation_sym, Permutation_nil in P.
  rewrite P. reflexivity.
Qed.

Lemma two_sorted keysort h l : sorts_by_z keysort -> cz l < cz h -> keysort [h; l] = [h; l].
Proof.
  intros Hs H. destruct (Hs [h; l]) as [P D].
  assert (L : length (keysort [h; l]) = 2%nat) by (apply Permutation_length in P; exact P).
  destruct (keysort [h; l]) as [|a [|b [|]]]; try discriminate L.
  apply Permutation_length_2 in P. destruct P as [[-> ->]|[-> ->]]; [reflexivity|].
  specialize (D O 1%nat l h ltac:(lia) eq_refl eq_refl). lra.
Qed.
Lemma fix_dz_id dz c : 0 < cdz c -> fix_dz dz c = c.
Proof. intro H. unfold fix_dz. destruct (Qeq_bool (cdz c) (-1)) eqn:E; [apply Qeq_bool_iff in E; lra|reflexivity]. Qed.

Theorem two_candidates keysort dz pdf h l : sorts_by_z keysort ->
  usable dz pdf h -> usable dz pdf l -> 0 < cdz h -> 0 < cdz l -> cz l < cz h ->
  let ov := window_end pdf l - window_begin pdf h in
  let wh := window_end pdf h - window_begin pdf h in let wl := window_end pdf l - window_begin pdf l in
  exists rh rl dups, SetIntegrationRanges keysort dz pdf [h; l] = Ok ([(h, rh); (l, rl)], dups) /\
    rend rh == window_end pdf h /\ rbeg rl == window_begin pdf l /\
    ((ov <= 0 /\ dups = [] /\ rbeg rh == window_begin pdf h /\ rend rl == window_end pdf l) \/
     (0 < ov /\ ov < (3 # 10) * wh /\ ov < (3 # 10) * wl /\ dups = [] /\
      rbeg rh == (window_begin pdf h + window_end pdf l) / 2 /\ rend rl == rbeg rh) \/
     (0 < ov /\ ((3 # 10) * wh <= ov \/ (3 # 10) * wl <= ov) /\
      rbeg rh == window_begin pdf h /\ rend rl == window_end pdf l /\
      ((cval h < cval l /\ dups = [cid h]) \/ (cval l <= cval h /\ dups = [cid l])))).
Proof.
  intros Hs Uh Ul Dh Dl Hz ov wh wl.
  destruct (ranges_spec keysort dz pdf [h; l] Hs ltac:(discriminate)) as [out [dups [E _]]].
  { intros c [<-|[<-|[]]]; assumption. }
  unfold SetIntegrationRanges in *. cbn [map] in *. rewrite !fix_dz_id in * by assumption.
  rewrite (two_sorted _ _ _ Hs Hz) in *. cbn [map] in *.
  assert (Rh : ready pdf h) by (destruct Uh as [? [? _]]; split; auto).
  assert (Rl : ready pdf l) by (destruct Ul as [? [? _]]; split; auto).
  destruct (initRange_spec pdf h Rh) as [h1 h2]. destruct (initRange_spec pdf l Rl) as [l1 l2].
  destruct (window_bounds pdf h Rh) as [b1 [b2 [b3 b4]]]. destruct (window_bounds pdf l Rl) as [c1 [c2 [c3 c4]]].
  set (rh := initRange pdf h) in *. set (rl := initRange pdf l) in *.
  cbn [trim_from] in *. unfold trim_step in *.
  assert (Sh : 0 <= rend rh - rbeg rh) by lra. assert (Sl : 0 <= rend rl - rbeg rl) by lra.
  destruct (Qle_bool (rend rl - rbeg rh) 0) eqn:E0.
  - apply Qle_bool_iff in E0. cbn [app] in *. destruct (range_check [] [(h, rh); (l, rl)]); [|discriminate].
    exists rh, rl, []. split; [reflexivity|]. split; [exact h2|]. split; [exact l1|]. left. unfold ov. repeat split; auto; lra.
  - assert (Ov : 0 < rend rl - rbeg rh).
    { destruct (Qlt_le_dec 0 (rend rl - rbeg rh)) as [X|X]; [exact X|]. apply Qle_bool_iff in X. congruence. }
    destruct (ratio_small (rend rl - rbeg rh) (rend rh - rbeg rh)) eqn:E1;
    destruct (ratio_small (rend rl - rbeg rh) (rend rl - rbeg rl)) eqn:E2; cbn [andb app] in *.
    1:{ apply ratio_small_spec in E1; auto. apply ratio_small_spec in E2; auto. unfold OVERLAP_THRESHOLD in *.
        match type of E with context [range_check ?a ?b] => destruct (range_check a b); [|discriminate] end.
        do 3 eexists. split; [reflexivity|]. cbn [rbeg rend]. split; [exact h2|]. split; [exact l1|]. right; left.
        unfold ov, wh, wl. split; [lra|]. split; [lra|]. split; [lra|]. split; [reflexivity|]. split; [|reflexivity].
        rewrite h1, l2. field. }
    all: match type of E with context [range_check ?a ?b] => destruct (range_check a b); [|discriminate] end;
      do 3 eexists; (split; [reflexivity|]); (split; [exact h2|]); (split; [exact l1|]); right; right;
      (split; [unfold ov; lra|]);
      (split; [|split; [exact h1|split; [exact l2|]]]);
      [|destruct (Qltb_spec (cval h) (cval l)) as [V|V]; [left|right]; split; auto; lra].
    all: unfold ov, wh, wl.
    + right. destruct (Qlt_le_dec (rend rl - rbeg rh) (OVERLAP_THRESHOLD * (rend rl - rbeg rl))) as [X|X].
      * apply ratio_small_spec in X; auto. congruence.
      * unfold OVERLAP_THRESHOLD in X. lra.
    + left. destruct (Qlt_le_dec (rend rl - rbeg rh) (OVERLAP_THRESHOLD * (rend rh - rbeg rh))) as [X|X].
      * apply ratio_small_spec in X; auto. congruence.
      * unfold OVERLAP_THRESHOLD in X. lra.
    + left. destruct (Qlt_le_dec (rend rl - rbeg rh) (OVERLAP_THRESHOLD * (rend rh - rbeg rh))) as [X|X].
      * apply ratio_small_spec in X; auto. congruence.
      * unfold OVERLAP_THRESHOLD in X. lra.
Qed.
