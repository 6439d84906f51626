From Coq Require Import String.
From Verif Require Import Base ScopeModel StoreModel StoreProofs TcatModel TcatSpec.

Lemma lst_set t o g c l c' o' g' : lst (set_lists t o g (mset (tc_lists t o g) c l)) c' o' g' =
  if (String.eqb c c' && Bool.eqb o o' && Bool.eqb g g')%bool then l else lst t c' o' g'.
Proof.
  unfold lst, set_lists. cbn [tc_lists]. destruct (Bool.eqb_spec o o') as [<-|N]; cbn [andb].
  - destruct (Bool.eqb_spec g g') as [<-|N]; cbn [andb]; [|rewrite !andb_false_r; reflexivity].
    rewrite mfind_mset. destruct (String.eqb c c'); reflexivity.
  - rewrite !andb_false_r. reflexivity.
Qed.
Lemma lst_width t w c o g : lst (set_width t w) c o g = lst t c o g. Proof. reflexivity. Qed.
Lemma lst_flags t a b c o g : lst (set_flags t a b) c o g = lst t c o g. Proof. reflexivity. Qed.
Lemma count_lst t c o g : GetTemplateCount t c o g = length (lst t c o g).
Proof. unfold GetTemplateCount, lst. destruct (mfind _ _); reflexivity. Qed.
Lemma count0 t c o g : Nat.eqb (GetTemplateCount t c o g) 0 = match lst t c o g with [] => true | _ => false end.
Proof. rewrite count_lst. destruct (lst t c o g); reflexivity. Qed.
Lemma nonnull_lst t c o g : GetNonNullTemplateCount t c o g = nonnull (lst t c o g).
Proof. unfold GetNonNullTemplateCount. rewrite count0. unfold lst. destruct (mfind _ _) as [[|x l]|]; reflexivity. Qed.

(** what any clearing does outside of the category, and to the width *)
Definition both_empty (t : tcat) (c : string) : bool := match lst t c true false, lst t c true true with [], [] => true | _, _ => false end.
Definition Step (c : string) (t t' : tcat) : Prop :=
  same_flags t t' /\ (forall c' o g, c' <> c -> lst t' c' o g = lst t c' o g) /\
  (forall o g, lst t c o g = [] -> lst t' c o g = []) /\
  tc_width t' = if (both_empty t' c && negb (both_empty t c))%bool then None else tc_width t.
Lemma Step_refl c t : Step c t t.
Proof. split; [split; reflexivity|]. split; [auto|]. split; [auto|]. destruct (both_empty t c); reflexivity. Qed.
Lemma be_mono c t t' : (forall o g, lst t c o g = [] -> lst t' c o g = []) -> both_empty t c = true -> both_empty t' c = true.
Proof.
  unfold both_empty. intros H E. destruct (lst t c true false) eqn:A; [|discriminate]. destruct (lst t c true true) eqn:B; [|discriminate].
  rewrite (H _ _ A), (H _ _ B). reflexivity.
Qed.
Lemma Step_trans c t1 t2 t3 : Step c t1 t2 -> Step c t2 t3 -> Step c t1 t3.
Proof.
  intros [[A1 A2] [B [C D]]] [[A1' A2'] [B' [C' D']]]. split; [split; congruence|]. split; [intros; rewrite B', B; auto|]. split; [auto|].
  rewrite D', D. pose proof (be_mono _ _ _ C). pose proof (be_mono _ _ _ C').
  destruct (both_empty t1 c), (both_empty t2 c), (both_empty t3 c); try reflexivity; try (specialize (H eq_refl); discriminate); specialize (H0 eq_refl); discriminate.
Qed.
Lemma at_set_len l i x l' : at_set l i x = Ok l' -> length l' = length l.
Proof.
  unfold at_set. destruct (i <? 0)%Z; [discriminate|]. destruct (_ <=? i)%Z eqn:E; [discriminate|]. intro H. apply Z.leb_gt in E.
  destruct (Z.ltb_spec i 0); [|]. 2:destruct (vset_ok l (Z.to_nat i) x) as [l2 [E2 [L _]]]; [lia|congruence].
  destruct (vset_ok l (Z.to_nat i) x) as [l2 [E2 [L _]]]; [destruct l; [discriminate|simpl; lia]|congruence].
Qed.
Lemma step_set c t o g l : lst t c o g <> [] -> l <> [] -> Step c t (set_lists t o g (mset (tc_lists t o g) c l)).
Proof.
  intros N N'. split; [split; reflexivity|]. split.
  - intros c' o' g' H. rewrite lst_set. destruct (String.eqb_spec c c'); [congruence|reflexivity].
  - split.
    + intros o' g' H. rewrite lst_set. rewrite String.eqb_refl. destruct (Bool.eqb_spec o o') as [<-|]; [|exact H]. destruct (Bool.eqb_spec g g') as [<-|]; [|exact H]. contradiction.
    + assert (E : both_empty (set_lists t o g (mset (tc_lists t o g) c l)) c = both_empty t c).
      { unfold both_empty. rewrite !lst_set, String.eqb_refl. destruct o, g; cbn [andb Bool.eqb]; try reflexivity; destruct l; try contradiction.
        - destruct (lst t c true true); [contradiction|]. destruct (lst t c true false); reflexivity.
        - destruct (lst t c true false); [contradiction|]. reflexivity. }
      rewrite E. destruct (both_empty t c); reflexivity.
Qed.
Lemma step_clear c t o g : lst t c o g <> [] -> Step c t
  (let t1 := set_lists t o g (mset (tc_lists t o g) c []) in if o then if Nat.eqb (GetTemplateCount t1 c o (negb g)) 0 then set_width t1 None else t1 else t1).
Proof.
  intros N. cbv zeta. set (t1 := set_lists t o g (mset (tc_lists t o g) c [])).
  assert (V : forall c' o' g', lst t1 c' o' g' = if (String.eqb c c' && Bool.eqb o o' && Bool.eqb g g')%bool then [] else lst t c' o' g') by (intros; apply lst_set).
  assert (F : tc_ortho t1 = tc_ortho t /\ tc_log t1 = tc_log t /\ tc_width t1 = tc_width t) by (repeat split).
  clearbody t1. destruct F as [F1 [F2 F3]].
  rewrite count0. assert (K : forall t2, tc_lists t2 = tc_lists t1 -> forall c' o' g', lst t2 c' o' g' = lst t1 c' o' g') by (intros t2 E c' o' g'; unfold lst; rewrite E; reflexivity).
  set (t2 := if o then _ else t1).
  assert (T2 : tc_lists t2 = tc_lists t1 /\ tc_ortho t2 = tc_ortho t1 /\ tc_log t2 = tc_log t1) by (unfold t2; destruct o; [destruct (lst t1 c true (negb g))|]; repeat split).
  destruct T2 as [E1 [E2 E3]]. split; [split; congruence|]. split.
  - intros c' o' g' H. rewrite (K _ E1), V. destruct (String.eqb_spec c c'); [congruence|reflexivity].
  - split.
    + intros o' g' H. rewrite (K _ E1), V. destruct (_ && _)%bool; [reflexivity|exact H].
    + unfold both_empty. rewrite !(K _ E1), !V, String.eqb_refl. unfold t2. rewrite V, String.eqb_refl.
      destruct o, g; cbn [andb Bool.eqb negb tc_width set_width].
      * destruct (lst t c true true) as [|]; [contradiction|]. destruct (lst t c true false); cbn; auto.
      * destruct (lst t c true false) as [|]; [contradiction|]. destruct (lst t c true true); cbn; auto.
      * destruct (lst t c true true), (lst t c true false); cbn; auto.
      * destruct (lst t c true true), (lst t c true false); cbn; auto.
Qed.
Lemma clear_step n : forall t c o g i all, Step c t (fst (clear_rec n t c o g i all)).
Proof.
  induction n as [|n IH]; intros t c o g i all; cbn [clear_rec]; [apply Step_refl|]. rewrite count0.
  change (match mfind (tc_lists t o g) c with Some l => l | None => [] end) with (lst t c o g).
  destruct (lst t c o g) as [|x l0] eqn:L; [apply Step_refl|].
  assert (N : lst t c o g <> []) by congruence.
  match goal with |- context [andthen ?a ?k] => set (A := a); set (Kt := k) end.
  assert (SA : Step c t (fst A)).
  { unfold A. destruct all; [apply (step_clear c t o g N)|]. destruct (at_set (x :: l0) i None) as [l'|e|] eqn:E; try apply Step_refl.
    assert (N' : l' <> []) by (apply at_set_len in E; destruct l'; discriminate). cbv zeta.
    pose proof (step_set c t o g l' N N') as S1. destruct (Nat.eqb _ _); [|exact S1]. eapply Step_trans; [exact S1|apply IH]. }
  unfold andthen at 1. destruct A as [t2 [[]|e|]] eqn:EA; try exact SA.
  assert (SK : forall t2, Step c t2 (fst (Kt t2))).
  { clear - IH. intro t2. unfold Kt. set (B := if negb o then clear_rec n t2 c true g i all else (t2, Ok tt)).
    assert (SB : Step c t2 (fst B)) by (unfold B; destruct (negb o); [apply IH|apply Step_refl]).
    unfold andthen. destruct B as [t3 [[]|e|]]; try exact SB. eapply Step_trans; [exact SB|]. destruct (_ && _)%bool; [apply IH|apply Step_refl]. }
  eapply Step_trans; [exact SA|apply SK].
Qed.

(** ** the lists of the category *)
Lemma clear_unfold m t c o g i all : clear_rec (S m) t c o g i all =
      if Nat.eqb (GetTemplateCount t c o g) 0 then (t, Ok tt) else
      andthen
        (if all then
           let t1 := set_lists t o g (mset (tc_lists t o g) c []) in
           (if o then if Nat.eqb (GetTemplateCount t1 c o (negb g)) 0 then set_width t1 None else t1 else t1, Ok tt)
         else
           match at_set (lst t c o g) i None with
           | Ok l' =>
               let t1 := set_lists t o g (mset (tc_lists t o g) c l') in
               if Nat.eqb (GetNonNullTemplateCount t1 c o g) 0 then clear_rec m t1 c o g 0 true else (t1, Ok tt)
           | Throw e => (t, Throw e)
           | UB => (t, UB)
           end)
        (fun t2 =>
           andthen (if negb o then clear_rec m t2 c true g i all else (t2, Ok tt))
             (fun t3 => if (negb g && negb o)%bool then clear_rec m t3 c false true i all else (t3, Ok tt))).
Proof. reflexivity. Qed.
Lemma forget_len i l : length (forget i l) = length l.
Proof. unfold forget. rewrite map_length, combine_length, seq_length. lia. Qed.
Lemma forget_from i l : forall k, map (fun p => if Nat.eqb (fst p) (k + i) then None else snd p) (combine (seq k (length l)) l) =
  match vset l i (@None tpl) with Ok l' => l' | _ => l end.
Proof.
  revert i; induction l as [|x l IH]; intros i k; [reflexivity|]. cbn [length seq combine map fst snd vset]. destruct i as [|i].
  - rewrite Nat.add_0_r, Nat.eqb_refl. f_equal. assert (G : forall l j, (k < j)%nat -> map (fun p => if Nat.eqb (fst p) k then @None tpl else snd p) (combine (seq j (length l)) l) = l).
    { clear. induction l as [|y l IH]; intros j H; [reflexivity|]. cbn [length seq combine map fst snd]. destruct (Nat.eqb_spec j k); [lia|]. f_equal. apply IH. lia. }
    apply G. lia.
  - destruct (Nat.eqb_spec k (k + S i)); [lia|]. specialize (IH i (S k)). replace (S k + i)%nat with (k + S i)%nat in IH by lia. rewrite IH.
    destruct (vset l i None); reflexivity.
Qed.
Lemma at_forget l i : (i < length l)%nat -> at_set l (Z.of_nat i) None = Ok (forget i l).
Proof.
  intro H. unfold at_set. destruct (Z.ltb_spec (Z.of_nat i) 0); [lia|]. destruct (Z.leb_spec (Z.of_nat (length l)) (Z.of_nat i)); [lia|]. rewrite Nat2Z.id.
  unfold forget. pose proof (forget_from i l 0) as F. simpl in F. rewrite F. destruct (vset_ok l i (@None tpl) H) as [l' [E _]]. rewrite E. reflexivity.
Qed.
Lemma nonnull_0 l : Nat.eqb (nonnull l) 0 = negb (existsb (fun x => match x with Some _ => true | None => false end) l).
Proof. unfold nonnull. induction l as [|[x|] l IH]; cbn; auto. Qed.
Lemma erase_nil i : erase i [] = []. Proof. reflexivity. Qed.

Definition others (c : string) (t t' : tcat) (f : bool -> bool -> bool) : Prop := forall o g, f o g = false -> lst t' c o g = lst t c o g.
Lemma leaf_all n t c g i : exists t', clear_rec (S n) t c true g i true = (t', Ok tt) /\ lst t' c true g = [] /\ others c t t' (derived true g).
Proof.
  rewrite clear_unfold, count0. destruct (lst t c true g) eqn:L; [exists t; split; [reflexivity|]; split; [exact L|]; intros o' g' _; reflexivity|].
  cbn [negb andthen]. rewrite andb_false_r. eexists; split; [reflexivity|]. split.
  - destruct (Nat.eqb _ _); [rewrite lst_width|]; rewrite lst_set, String.eqb_refl, !eqb_reflx; reflexivity.
  - intros o' g' H. destruct (Nat.eqb _ _); [rewrite lst_width|]; rewrite lst_set, String.eqb_refl; destruct o', g', g; cbn in *; try discriminate; reflexivity.
Qed.
(** the first part of a clearing of one template *)
Lemma head_one n t c o g i : lst t c o g <> [] -> (i < length (lst t c o g))%nat ->
  (forall t1, others c t t1 (fun o' g' => Bool.eqb o o' && Bool.eqb g g')%bool -> lst t1 c o g = forget i (lst t c o g) ->
     exists t', clear_rec n t1 c o g 0 true = (t', Ok tt) /\ (forall o' g', derived o g o' g' = true -> lst t' c o' g' = []) /\ others c t1 t' (derived o g)) ->
  exists t2, (match at_set (lst t c o g) (Z.of_nat i) None with
     | Ok l' => let t1 := set_lists t o g (mset (tc_lists t o g) c l') in
               if Nat.eqb (GetNonNullTemplateCount t1 c o g) 0 then clear_rec n t1 c o g 0 true else (t1, Ok tt)
     | Throw e => (t, Throw e)
     | UB => (t, UB)
     end) = (t2, Ok tt) /\ others c t t2 (derived o g) /\ lst t2 c o g = erase i (lst t c o g) /\
     (erase i (lst t c o g) = [] -> forall o' g', derived o g o' g' = true -> lst t2 c o' g' = []) /\
     (erase i (lst t c o g) <> [] -> others c t t2 (fun o' g' => Bool.eqb o o' && Bool.eqb g g')%bool).
Proof.
  intros N Hi K. rewrite (at_forget _ _ Hi). cbv zeta. set (t1 := set_lists t o g _).
  assert (V : forall o' g', lst t1 c o' g' = if (Bool.eqb o o' && Bool.eqb g g')%bool then forget i (lst t c o g) else lst t c o' g') by (intros; unfold t1; rewrite lst_set, String.eqb_refl; reflexivity).
  rewrite nonnull_lst, nonnull_0, V, !eqb_reflx. cbn [andb]. unfold erase.
  assert (Dr : derived o g o g = true) by (destruct o, g; reflexivity).
  assert (O1 : others c t t1 (fun o' g' => Bool.eqb o o' && Bool.eqb g g')%bool) by (intros o' g' H; rewrite V, H; reflexivity).
  assert (OD : others c t t1 (derived o g)). { intros o' g' H. apply O1. destruct o, g, o', g'; cbn in *; congruence. }
  destruct (existsb _ _) eqn:E; cbn [negb].
  - exists t1. split; [reflexivity|]. split; [exact OD|]. split; [rewrite V, !eqb_reflx; reflexivity|]. split.
    + intro H. assert (length (forget i (lst t c o g)) = 0)%nat by (rewrite H; reflexivity). rewrite forget_len in H0. destruct (lst t c o g); [contradiction|discriminate].
    + intros _. exact O1.
  - destruct (K t1) as [t' [E' [A B]]]; [exact O1|rewrite V, !eqb_reflx; reflexivity|]. exists t'. split; [exact E'|]. split.
    + intros o' g' H. rewrite B by exact H. apply OD. exact H.
    + split; [apply A; exact Dr|]. split; [intros _ o' g' H; apply A; exact H|]. intro H. contradiction.
Qed.
Lemma leaf_one n t c g i : lst t c true g = [] \/ (i < length (lst t c true g))%nat ->
  exists t', clear_rec (S (S n)) t c true g (Z.of_nat i) false = (t', Ok tt) /\ lst t' c true g = erase i (lst t c true g) /\ others c t t' (derived true g).
Proof.
  intros Hi. rewrite clear_unfold, count0.
  destruct (lst t c true g) as [|x l] eqn:L; [exists t; split; [reflexivity|]; split; [rewrite L; reflexivity|]; intros o' g' _; reflexivity|].
  rewrite <- L in *. assert (N : lst t c true g <> []) by congruence. destruct Hi as [Hi|Hi]; [contradiction|].
  destruct (head_one (S n) t c true g i N Hi) as [t2 [E [O [F [_ _]]]]].
  { intros t1 _ _. destruct (leaf_all n t1 c g 0) as [t' [E' [A B]]]. exists t'. split; [exact E'|]. split; [|exact B]. intros o' g' H. destruct o'; [|discriminate]. destruct g, g'; try discriminate; exact A. }
  rewrite E. cbn [andthen negb]. rewrite andb_false_r. exists t2. auto.
Qed.
Lemma node_all_log n t c i : (lst t c false true = [] -> lst t c true true = []) ->
  exists t', clear_rec (S (S n)) t c false true i true = (t', Ok tt) /\ (forall o' g', derived false true o' g' = true -> lst t' c o' g' = []) /\ others c t t' (derived false true).
Proof.
  intro H. rewrite clear_unfold, count0. destruct (lst t c false true) eqn:L.
  - exists t. split; [reflexivity|]. split; [|intros o' g' _; reflexivity]. intros [|] [|] D; try discriminate; auto.
  - cbn [andthen negb andb]. set (t1 := set_lists t false true _).
    destruct (leaf_all n t1 c true i) as [t' [E [A B]]]. rewrite E. cbn [andthen]. exists t'. split; [reflexivity|].
    assert (V : forall o' g', lst t1 c o' g' = if (Bool.eqb false o' && Bool.eqb true g')%bool then [] else lst t c o' g') by (intros; unfold t1; rewrite lst_set, String.eqb_refl; reflexivity).
    split.
    + intros [|] [|] D; try discriminate; [exact A|]. rewrite B by reflexivity. rewrite V. reflexivity.
    + intros o' g' D. rewrite B; [rewrite V|]; destruct o', g'; try discriminate; reflexivity.
Qed.
Lemma node_all n t c i : (lst t c false true = [] -> lst t c true true = []) -> (lst t c false false = [] -> forall o g, lst t c o g = []) ->
  exists t', clear_rec (S (S (S n))) t c false false i true = (t', Ok tt) /\ (forall o' g', lst t' c o' g' = []).
Proof.
  intros H H0. rewrite clear_unfold, count0. destruct (lst t c false false) eqn:L.
  - exists t. split; [reflexivity|]. intros o' g'. apply H0. reflexivity.
  - cbn [andthen negb andb]. set (t1 := set_lists t false false _).
    assert (V : forall o' g', lst t1 c o' g' = if (Bool.eqb false o' && Bool.eqb false g')%bool then [] else lst t c o' g') by (intros; unfold t1; rewrite lst_set, String.eqb_refl; reflexivity).
    destruct (leaf_all (S n) t1 c false i) as [t2 [E [A B]]]. rewrite E. cbn [andthen].
    destruct (node_all_log n t2 c i) as [t' [E' [A' B']]].
    { intro X. rewrite B in X by reflexivity. rewrite V in X. cbn in X. rewrite B by reflexivity. rewrite V. cbn. auto. }
    rewrite E'. exists t'. split; [reflexivity|].
    intros [|] [|]; [apply A'; reflexivity| |apply A'; reflexivity|]; rewrite B' by reflexivity; [exact A|]. rewrite B by reflexivity. rewrite V. reflexivity.
Qed.
Lemma node_one_log n t c i : (lst t c false true = [] -> lst t c true true = []) -> (lst t c false true = [] \/ (i < length (lst t c false true))%nat) ->
  (lst t c true true = [] \/ (i < length (lst t c true true))%nat) ->
  exists t', clear_rec (S (S (S n))) t c false true (Z.of_nat i) false = (t', Ok tt) /\ others c t t' (derived false true) /\
    lst t' c false true = erase i (lst t c false true) /\
    lst t' c true true = (match erase i (lst t c false true) with [] => [] | _ => erase i (lst t c true true) end).
Proof.
  intros H Hi Hj. rewrite clear_unfold, count0.
  destruct (lst t c false true) as [|x l] eqn:L; [exists t; split; [reflexivity|]; split; [intros o' g' _; reflexivity|]; split; [rewrite L; reflexivity|]; cbn; auto|].
  rewrite <- L in *. assert (N : lst t c false true <> []) by congruence. destruct Hi as [Hi|Hi]; [contradiction|].
  destruct (head_one (S (S n)) t c false true i N Hi) as [t2 [E [O [F [G K]]]]].
  { intros t1 _ X. apply (node_all_log n t1 c 0). intro Y. rewrite X in Y. assert (length (forget i (lst t c false true)) = 0)%nat by (rewrite Y; reflexivity). rewrite forget_len in H0. destruct (lst t c false true); [contradiction|discriminate]. }
  rewrite E. cbn [andthen negb andb].
  assert (Hj' : lst t2 c true true = [] \/ (i < length (lst t2 c true true))%nat).
  { destruct (erase i (lst t c false true)) eqn:Er; [left; apply G; reflexivity|]. rewrite K by (congruence || reflexivity). exact Hj. }
  destruct (leaf_one n t2 c true i Hj') as [t' [E' [A B]]]. rewrite E'. cbn [andthen]. exists t'. split; [reflexivity|].
  split.
  - intros o' g' D. rewrite B; [apply O; exact D|]. destruct o', g'; try discriminate; reflexivity.
  - split; [rewrite B by reflexivity; exact F|]. rewrite A. destruct (erase i (lst t c false true)) eqn:Er; [rewrite G by reflexivity; reflexivity|].
    rewrite K by (congruence || reflexivity). reflexivity.
Qed.
Lemma node_one n t c i : (lst t c false true = [] -> lst t c true true = []) -> (lst t c false false = [] -> forall o g, lst t c o g = []) ->
  (forall o g, lst t c o g = [] \/ (i < length (lst t c o g))%nat) ->
  exists t', clear_rec (S (S (S (S n)))) t c false false (Z.of_nat i) false = (t', Ok tt) /\
    lst t' c false false = erase i (lst t c false false) /\
    (erase i (lst t c false false) = [] -> forall o g, lst t' c o g = []) /\
    (erase i (lst t c false false) <> [] -> lst t' c true false = erase i (lst t c true false) /\ lst t' c false true = erase i (lst t c false true) /\
      lst t' c true true = (match erase i (lst t c false true) with [] => [] | _ => erase i (lst t c true true) end)).
Proof.
  intros H H0 Hi. rewrite clear_unfold, count0.
  destruct (lst t c false false) as [|x l] eqn:L.
  - exists t. split; [reflexivity|]. split; [rewrite L; reflexivity|]. split; [intros _; apply H0; reflexivity|]. intro X. contradiction.
  - rewrite <- L in *. assert (N : lst t c false false <> []) by congruence. destruct (Hi false false) as [Hf|Hf]; [contradiction|].
    destruct (head_one (S (S (S n))) t c false false i N Hf) as [t2 [E [O [F [G K]]]]].
    { intros t1 O X. destruct (node_all n t1 c 0) as [t' [E A]].
      - intro Y. rewrite O in Y by reflexivity. rewrite O by reflexivity. auto.
      - intro Y. rewrite X in Y. assert (length (forget i (lst t c false false)) = 0)%nat by (rewrite Y; reflexivity). rewrite forget_len in H1. destruct (lst t c false false); [contradiction|discriminate].
      - exists t'. split; [exact E|]. split; [intros; apply A|]. intros [|] [|]; discriminate. }
    rewrite E. cbn [andthen negb andb].
    assert (Hi' : forall o g, (o, g) <> (false, false) -> lst t2 c o g = [] \/ (i < length (lst t2 c o g))%nat).
    { intros o g Ne. destruct (erase i (lst t c false false)) eqn:Er; [left; apply G; [reflexivity|destruct o, g; reflexivity]|]. rewrite K; [apply Hi|congruence|]. destruct o, g; try reflexivity. exfalso; apply Ne; reflexivity. }
    assert (Hc : lst t2 c false true = [] -> lst t2 c true true = []).
    { destruct (erase i (lst t c false false)) eqn:Er; [intros _; apply G; reflexivity|]. rewrite !K by (congruence || reflexivity). exact H. }
    destruct (leaf_one (S n) t2 c false i) as [t3 [E3 [A3 B3]]]; [apply Hi'; congruence|]. rewrite E3. cbn [andthen].
    destruct (node_one_log n t3 c i) as [t' [E' [O' [A' B']]]].
    { rewrite !B3 by reflexivity. exact Hc. }
    { rewrite !B3 by reflexivity. apply Hi'. congruence. }
    { rewrite !B3 by reflexivity. apply Hi'. congruence. }
    rewrite E'. exists t'. split; [reflexivity|].
    rewrite !B3 in A' by reflexivity. rewrite !B3 in B' by reflexivity.
    assert (C1 : lst t' c false false = erase i (lst t c false false)) by (rewrite O' by reflexivity; rewrite B3 by reflexivity; exact F).
    assert (C2 : lst t' c true false = erase i (lst t2 c true false)) by (rewrite O' by reflexivity; exact A3).
    split; [exact C1|]. split.
    + intro Er. intros [|] [|]; [rewrite B'|rewrite C2|rewrite A'|congruence]; rewrite !G by (exact Er || reflexivity); reflexivity.
    + intro Er. rewrite C2, A', B'. rewrite !K by (exact Er || reflexivity). auto.
Qed.
Lemma coh t c o g o' g' : coherent t c -> derived o g o' g' = true -> lst t c o g = [] -> lst t c o' g' = [].
Proof. intros H D E. destruct (H _ _ _ _ D) as [X|X]; [exact X|]. rewrite E in X. destruct (lst t c o' g'); [reflexivity|discriminate]. Qed.
Lemma derived_trans o g o1 g1 o2 g2 : derived o g o1 g1 = true -> derived o1 g1 o2 g2 = true -> derived o g o2 g2 = true.
Proof. destruct o, g, o1, g1, o2, g2; cbn; congruence. Qed.
Lemma derived_refl o g : derived o g o g = true. Proof. destruct o, g; reflexivity. Qed.
Lemma clear_all t c o g i : coherent t c -> exists t', ClearTemplates t c o g i true = (t', Ok tt) /\ Step c t t' /\
  (forall o' g', lst t' c o' g' = if derived o g o' g' then [] else lst t c o' g').
Proof.
  intro H. unfold ClearTemplates.
  assert (X : exists t', clear_rec 4 t c o g i true = (t', Ok tt) /\ (forall o' g', lst t' c o' g' = if derived o g o' g' then [] else lst t c o' g')).
  { destruct o.
    - destruct (leaf_all 3 t c g i) as [t' [E [A B]]]. exists t'. split; [exact E|]. intros o' g'. destruct (derived true g o' g') eqn:D; [|apply B; exact D]. destruct o', g, g'; try discriminate; exact A.
    - assert (H1 : lst t c false true = [] -> lst t c true true = []) by (apply coh; [exact H|reflexivity]). destruct g.
      + destruct (node_all_log 2 t c i H1) as [t' [E [A B]]]. exists t'. split; [exact E|]. intros o' g'. destruct (derived false true o' g') eqn:D; [apply A; exact D|apply B; exact D].
      + destruct (node_all 1 t c i H1) as [t' [E A]]; [intros X o g; eapply coh; eauto; destruct o, g; reflexivity|]. exists t'. split; [exact E|]. intros o' g'. rewrite A. destruct o', g'; reflexivity. }
  destruct X as [t' [E A]]. exists t'. split; [exact E|]. split; [|exact A]. pose proof (clear_step 4 t c o g i true) as S. rewrite E in S. exact S.
Qed.
Lemma clear_one t c o g i : coherent t c -> (i < length (lst t c o g))%nat -> exists t', ClearTemplates t c o g (Z.of_nat i) false = (t', Ok tt) /\ Step c t t' /\
  (forall o' g', derived o g o' g' = false -> lst t' c o' g' = lst t c o' g') /\
  (forall o' g', derived o g o' g' = true ->
     ((exists o2 g2, derived o g o2 g2 = true /\ derived o2 g2 o' g' = true /\ erase i (lst t c o2 g2) = []) -> lst t' c o' g' = []) /\
     ((forall o2 g2, derived o g o2 g2 = true -> derived o2 g2 o' g' = true -> erase i (lst t c o2 g2) <> []) -> lst t' c o' g' = erase i (lst t c o' g'))).
Proof.
  intros H Hi. assert (Hj : forall o' g', derived o g o' g' = true -> lst t c o' g' = [] \/ (i < length (lst t c o' g'))%nat).
  { intros o' g' D. destruct (H _ _ _ _ D) as [X|X]; [left; exact X|right; lia]. }
  assert (X : exists t', ClearTemplates t c o g (Z.of_nat i) false = (t', Ok tt) /\ (forall o' g', derived o g o' g' = false -> lst t' c o' g' = lst t c o' g') /\
     (forall o' g', derived o g o' g' = true ->
     ((exists o2 g2, derived o g o2 g2 = true /\ derived o2 g2 o' g' = true /\ erase i (lst t c o2 g2) = []) -> lst t' c o' g' = []) /\
     ((forall o2 g2, derived o g o2 g2 = true -> derived o2 g2 o' g' = true -> erase i (lst t c o2 g2) <> []) -> lst t' c o' g' = erase i (lst t c o' g')))).
  { assert (H1 : lst t c false true = [] -> lst t c true true = []) by (apply coh; [exact H|reflexivity]). unfold ClearTemplates. destruct o.
    - destruct (leaf_one 2 t c g i) as [t' [E [A B]]]; [apply Hj; apply derived_refl|]. exists t'. split; [exact E|]. split; [exact B|].
      intros o' g' D. assert (o' = true /\ g' = g) as [-> ->] by (destruct o', g, g'; try discriminate; auto). rewrite A. split; [|reflexivity].
      intros [o2 [g2 [D1 [D2 X]]]]. assert (o2 = true /\ g2 = g) as [-> ->] by (destruct o2, g, g2; try discriminate; auto). exact X.
    - destruct g.
      + destruct (node_one_log 1 t c i H1) as [t' [E [O [A B]]]]; [apply Hj; reflexivity|apply Hj; reflexivity|]. exists t'. split; [exact E|]. split; [exact O|].
        intros o' g' D. destruct o', g'; try discriminate.
        * rewrite B. split.
          { intros [o2 [g2 [D1 [D2 X]]]]. destruct o2, g2; try discriminate; rewrite X; [|reflexivity]. destruct (erase i (lst t c false true)); reflexivity. }
          { intro X. pose proof (X false true eq_refl eq_refl). destruct (erase i (lst t c false true)); [contradiction|reflexivity]. }
        * rewrite A. split; [|reflexivity]. intros [o2 [g2 [D1 [D2 X]]]]. destruct o2, g2; try discriminate; exact X.
      + assert (H0 : lst t c false false = [] -> forall o g, lst t c o g = []) by (intros X o g; eapply coh; eauto; destruct o, g; reflexivity).
        destruct (node_one 0 t c i H1 H0) as [t' [E [A [B C]]]]; [intros o g; apply Hj; destruct o, g; reflexivity|]. exists t'. split; [exact E|].
        split; [intros [|] [|]; discriminate|]. intros o' g' _.
        destruct (erase i (lst t c false false)) as [|y l] eqn:Er.
        * rewrite B by reflexivity. split; [reflexivity|]. intro X. exfalso. apply (X false false); [reflexivity|destruct o', g'; reflexivity|exact Er].
        * destruct C as [C1 [C2 C3]]; [discriminate|]. destruct o', g'.
          { rewrite C3. split.
            - intros [o2 [g2 [D1 [D2 X]]]]. destruct o2, g2; try discriminate; rewrite ?X; try reflexivity; try congruence. destruct (erase i (lst t c false true)); reflexivity.
            - intro X. pose proof (X false true eq_refl eq_refl). destruct (erase i (lst t c false true)); [contradiction|reflexivity]. }
          { rewrite C1. split; [|reflexivity]. intros [o2 [g2 [D1 [D2 X]]]]. destruct o2, g2; try discriminate; congruence. }
          { rewrite C2. split; [|reflexivity]. intros [o2 [g2 [D1 [D2 X]]]]. destruct o2, g2; try discriminate; congruence. }
          { rewrite A, Er. split; [|reflexivity]. intros [o2 [g2 [D1 [D2 X]]]]. destruct o2, g2; try discriminate; congruence. } }
  destruct X as [t' [E A]]. exists t'. split; [exact E|]. split; [|exact A]. pose proof (clear_step 4 t c o g (Z.of_nat i) false) as S. unfold ClearTemplates in E. rewrite E in S. exact S.
Qed.
Lemma erase_cases i l : erase i l = [] \/ (erase i l = forget i l /\ length (erase i l) = length l).
Proof. unfold erase. destruct (existsb _ _); [right|left; reflexivity]. split; [reflexivity|apply forget_len]. Qed.
Lemma nil_dec (l : tlist) : l = [] \/ l <> []. Proof. destruct l; [left; reflexivity|right; discriminate]. Qed.
Lemma path_dec t c o g i o' g' : (exists o2 g2, derived o g o2 g2 = true /\ derived o2 g2 o' g' = true /\ erase i (lst t c o2 g2) = []) \/
  (forall o2 g2, derived o g o2 g2 = true -> derived o2 g2 o' g' = true -> erase i (lst t c o2 g2) <> []).
Proof.
  assert (P : forall o2 g2, (derived o g o2 g2 = true /\ derived o2 g2 o' g' = true /\ erase i (lst t c o2 g2) = []) \/ (derived o g o2 g2 = true -> derived o2 g2 o' g' = true -> erase i (lst t c o2 g2) <> [])).
  { intros o2 g2. destruct (derived o g o2 g2); [|right; discriminate]. destruct (derived o2 g2 o' g'); [|right; discriminate]. destruct (nil_dec (erase i (lst t c o2 g2))); [left|right]; auto. }
  destruct (P true true) as [X|A]; [left; eauto|]. destruct (P true false) as [X|B]; [left; eauto|]. destruct (P false true) as [X|C]; [left; eauto|]. destruct (P false false) as [X|D]; [left; eauto|].
  right. intros [|] [|]; assumption.
Qed.
Lemma clear_one_coherent t c o g i t' : coherent t c -> (i < length (lst t c o g))%nat -> ClearTemplates t c o g (Z.of_nat i) false = (t', Ok tt) -> coherent t' c.
Proof.
  intros H Hi E. destruct (clear_one t c o g i H Hi) as [t2 [E2 [_ [O D]]]]. rewrite E in E2. injection E2 as <-.
  assert (L : forall o' g', derived o g o' g' = true -> lst t' c o' g' = [] \/ length (lst t' c o' g') = length (lst t c o' g')).
  { intros o' g' X. destruct (D o' g' X) as [D1 D2]. destruct (path_dec t c o g i o' g') as [P|P]; [left; auto|]. rewrite (D2 P). destruct (erase_cases i (lst t c o' g')) as [Y|[_ Y]]; auto. }
  intros a b a' b' X. destruct (derived o g a' b') eqn:Y'.
  - destruct (L _ _ Y') as [Z|Z]; [left; exact Z|]. rewrite Z. destruct (derived o g a b) eqn:Y.
    + destruct (D _ _ Y) as [D1 D2]. destruct (path_dec t c o g i a b) as [P|P].
      * left. apply D; [exact Y'|]. destruct P as [o2 [g2 [P1 [P2 P3]]]]. exists o2, g2. split; [exact P1|]. split; [eapply derived_trans; eassumption|exact P3].
      * rewrite (D2 P). destruct (erase_cases i (lst t c a b)) as [W|[_ W]]; [exfalso; apply (P a b Y (derived_refl a b) W)|]. rewrite W.
        destruct (H _ _ _ _ X) as [V|V]; [left|right; exact V]. rewrite V in Z. destruct (lst t' c a' b'); [reflexivity|discriminate].
    + rewrite (O _ _ Y). destruct (H _ _ _ _ X) as [V|V]; [left|right; exact V]. rewrite V in Z. destruct (lst t' c a' b'); [reflexivity|discriminate].
  - rewrite (O _ _ Y'). destruct (derived o g a b) eqn:Y; [rewrite (derived_trans _ _ _ _ _ _ Y X) in Y'; discriminate|]. rewrite (O _ _ Y). apply H. exact X.
Qed.
Lemma clear_all_coherent t c o g i t' : coherent t c -> ClearTemplates t c o g i true = (t', Ok tt) -> coherent t' c.
Proof.
  intros H E. destruct (clear_all t c o g i H) as [t2 [E2 [_ D]]]. rewrite E in E2. injection E2 as <-. intros a b a' b' X. rewrite !D.
  destruct (derived o g a' b') eqn:Y'; [left; reflexivity|]. destruct (derived o g a b) eqn:Y; [rewrite (derived_trans _ _ _ _ _ _ Y X) in Y'; discriminate|]. apply H. exact X.
Qed.
(** ** out of range *)
Lemma clear_outside t c o g i : lst t c o g <> [] -> (i < 0 \/ Z.of_nat (length (lst t c o g)) <= i)%Z -> ClearTemplates t c o g i false = (t, Throw STD_out_of_range).
Proof.
  intros N H. unfold ClearTemplates. rewrite clear_unfold, count0. destruct (lst t c o g) as [|x l] eqn:L; [contradiction|]. unfold at_set.
  destruct (Z.ltb_spec i 0); [reflexivity|]. destruct (Z.leb_spec (Z.of_nat (length (x :: l))) i); [reflexivity|lia].
Qed.
Lemma clear_empty t c o g i all : lst t c o g = [] -> ClearTemplates t c o g i all = (t, Ok tt).
Proof. intro H. unfold ClearTemplates. rewrite clear_unfold, count0, H. reflexivity. Qed.
Lemma clear_partial t c g i : (length (lst t c true g) <= i < length (lst t c false g))%nat -> lst t c true g <> [] -> erase i (lst t c false g) <> [] ->
  exists t', ClearTemplates t c false g (Z.of_nat i) false = (t', Throw STD_out_of_range) /\ lst t' c false g = forget i (lst t c false g) /\ lst t' c true g = lst t c true g.
Proof.
  intros Hi N Er. unfold ClearTemplates. rewrite clear_unfold, count0. destruct (lst t c false g) as [|x l] eqn:L; [simpl in Hi; lia|]. rewrite <- L in *.
  rewrite at_forget by lia. cbv zeta. set (t1 := set_lists t false g _).
  assert (V : forall o' g', lst t1 c o' g' = if (Bool.eqb false o' && Bool.eqb g g')%bool then forget i (lst t c false g) else lst t c o' g') by (intros; unfold t1; rewrite lst_set, String.eqb_refl; reflexivity).
  assert (V1 : lst t1 c false g = forget i (lst t c false g)) by (rewrite V; destruct g; reflexivity). assert (V2 : lst t1 c true g = lst t c true g) by (rewrite V; reflexivity).
  rewrite nonnull_lst, nonnull_0, V1. unfold erase in Er. destruct (existsb _ _); [|contradiction]. cbn [negb andthen].
  rewrite clear_unfold, count0, V2. destruct (lst t c true g) as [|y l2] eqn:L2; [contradiction|]. unfold at_set.
  destruct (Z.ltb_spec (Z.of_nat i) 0); [lia|]. destruct (Z.leb_spec (Z.of_nat (length (y :: l2))) (Z.of_nat i)); [|lia]. cbn [andthen]. exists t1. split; [reflexivity|].
  split; [exact V1|exact V2].
Qed.
Lemma clear_orphan t c i all : lst t c false true = [] -> lst t c true true <> [] -> lst t c false false <> [] -> (all = true \/ i = 0%Z /\ length (lst t c false false) = 1%nat) ->
  lst t c true false = [] ->
  exists t', ClearTemplates t c false false i all = (t', Ok tt) /\ lst t' c false false = [] /\ lst t' c true true = lst t c true true.
Proof.
  intros H1 H2 H3 HA H4. unfold ClearTemplates.
  assert (A : forall n i t, lst t c false true = [] -> lst t c false false <> [] -> lst t c true false = [] -> exists t', clear_rec (S (S n)) t c false false i true = (t', Ok tt) /\ lst t' c false false = [] /\ lst t' c true true = lst t c true true /\ lst t' c false true = [] /\ lst t' c true false = []).
  { clear. intros n i t H1 H3 H4. rewrite clear_unfold, count0. destruct (lst t c false false) eqn:L; [contradiction|]. cbn [andthen negb andb]. set (t1 := set_lists t false false _).
    assert (V : forall o' g', lst t1 c o' g' = if (Bool.eqb false o' && Bool.eqb false g')%bool then [] else lst t c o' g') by (intros; unfold t1; rewrite lst_set, String.eqb_refl; reflexivity).
    rewrite clear_unfold, count0, V. cbn [andb Bool.eqb]. rewrite H4. cbn [andthen]. rewrite clear_unfold, count0, V. cbn [andb Bool.eqb]. rewrite H1. exists t1. split; [reflexivity|]. rewrite !V. cbn. auto. }
  destruct HA as [->|[-> L1]].
  - destruct (A 2%nat i t H1 H3 H4) as [t' [E [B [C _]]]]. exists t'. auto.
  - destruct all; [destruct (A 2%nat 0%Z t H1 H3 H4) as [t' [E [B [C _]]]]; exists t'; auto|].
    rewrite clear_unfold, count0. destruct (lst t c false false) as [|x [|]] eqn:L; try discriminate. change 0%Z with (Z.of_nat 0). rewrite at_forget by (simpl; lia). cbv zeta.
    set (t1 := set_lists t false false _).
    assert (V : forall o' g', lst t1 c o' g' = if (Bool.eqb false o' && Bool.eqb false g')%bool then [None] else lst t c o' g') by (intros; unfold t1; rewrite lst_set, String.eqb_refl; reflexivity).
    rewrite nonnull_lst, V. cbn [andb Bool.eqb]. change (Nat.eqb (nonnull [None]) 0) with true. cbv iota.
    destruct (A 1%nat 0%Z t1) as [t2 [E [B [C [D F]]]]]; try (rewrite V; cbn [andb Bool.eqb]; congruence). change (Z.of_nat 0) with 0%Z. rewrite E. cbn [andthen negb].
    rewrite clear_unfold, count0, F. cbn [andthen andb]. rewrite clear_unfold, count0, D. exists t2. split; [reflexivity|]. split; [exact B|]. rewrite C, V. reflexivity.
Qed.
(** ** Add and SetTemplate *)
Lemma Add_ok t r : t_cat r <> ""%string -> exists t', Add t r = (t', Ok tt) /\ same_flags t t' /\ tc_width t' = tc_width t /\
  forall c o g, lst t' c o g = if (String.eqb (t_cat r) c && Bool.eqb (tc_ortho t) o && Bool.eqb (tc_log t) g)%bool then (lst t c o g ++ [Some r])%list else lst t c o g.
Proof.
  intro H. unfold Add. destruct (String.eqb_spec (t_cat r) ""); [contradiction|]. eexists; split; [reflexivity|]. split; [split; reflexivity|]. split; [reflexivity|].
  intros c o g. rewrite lst_set. change (match mfind (tc_lists t (tc_ortho t) (tc_log t)) (t_cat r) with Some l => l | None => [] end) with (lst t (t_cat r) (tc_ortho t) (tc_log t)).
  destruct (String.eqb_spec (t_cat r) c) as [<-|]; [|reflexivity]. destruct (Bool.eqb_spec (tc_ortho t) o) as [<-|]; [|reflexivity]. destruct (Bool.eqb_spec (tc_log t) g) as [<-|]; reflexivity.
Qed.
Lemma Add_empty t r : t_cat r = ""%string -> Add t r = (t, Throw INTERNAL_ERROR).
Proof. intro H. unfold Add. rewrite H. reflexivity. Qed.
Lemma AddAll_ok l : forall t, (forall r, In r l -> t_cat r <> ""%string) -> exists t', AddAll t l = (t', Ok tt) /\ same_flags t t' /\ tc_width t' = tc_width t /\
  forall c o g, lst t' c o g = if (Bool.eqb (tc_ortho t) o && Bool.eqb (tc_log t) g)%bool then (lst t c o g ++ map Some (of_category c l))%list else lst t c o g.
Proof.
  induction l as [|r l IH]; intros t H.
  - exists t. split; [reflexivity|]. split; [split; reflexivity|]. split; [reflexivity|]. intros. simpl. rewrite app_nil_r. destruct (_ && _)%bool; reflexivity.
  - destruct (Add_ok t r) as [t1 [E1 [[F1 F2] [W1 L1]]]]; [apply H; left; reflexivity|]. destruct (IH t1) as [t2 [E2 [[G1 G2] [W2 L2]]]]; [intros; apply H; right; assumption|].
    exists t2. cbn [AddAll]. rewrite E1. cbn [andthen]. split; [exact E2|]. split; [split; congruence|]. split; [congruence|]. intros c o g. rewrite L2, L1, F1, F2. unfold of_category. cbn [filter].
    destruct (String.eqb (t_cat r) c); cbn [andb]; [|destruct (_ && _)%bool; reflexivity]. destruct (_ && _)%bool; [|reflexivity]. rewrite <- app_assoc. reflexivity.
Qed.
Lemma forget_nth i l j : nth_error (forget i l) j = if (Nat.eqb j i && Nat.ltb j (length l))%bool then Some None else nth_error l j.
Proof.
  unfold forget. pose proof (forget_from i l 0) as F. simpl in F. rewrite F. clear F. destruct (Nat.lt_ge_cases i (length l)) as [L|L].
  - destruct (vset_ok l i (@None tpl) L) as [l' [E [Le [N O]]]]. rewrite E. destruct (Nat.eqb_spec j i) as [->|Ne]; cbn [andb]; [|apply O; exact Ne].
    destruct (Nat.ltb_spec i (length l)); [exact N|lia].
  - assert (X : (match vset l i (@None tpl) with Ok l' => l' | _ => l end) = l).
    { assert (Y : vset l i (@None tpl) = UB). { clear - L. revert i L; induction l as [|x l IH]; intros i L; [reflexivity|]. destruct i; simpl in L; [lia|]. simpl. rewrite IH by lia. reflexivity. } rewrite Y. reflexivity. }
    rewrite X. destruct (Nat.eqb_spec j i) as [->|]; [|reflexivity]. destruct (Nat.ltb_spec i (length l)); [lia|reflexivity].
Qed.
Lemma erase_nth i l x : nth_error (erase i l) i <> Some (Some x).
Proof.
  destruct (erase_cases i l) as [->|[-> _]]; [destruct i; discriminate|]. rewrite forget_nth, Nat.eqb_refl. destruct (Nat.ltb_spec i (length l)); cbn; [discriminate|].
  intro H0. assert (i < length l)%nat by (apply nth_error_Some; congruence). lia.
Qed.
Lemma erase_nil_iff i l : erase i l = [] <-> (l = [] \/ forall j x, nth_error l j = Some (Some x) -> j = i).
Proof.
  assert (X : existsb (fun x => match x with Some _ => true | None => false end) (forget i l) = true <-> exists j x, j <> i /\ nth_error l j = Some (Some x)).
  { rewrite existsb_exists. split.
    - intros [[x|] [H E]]; [|discriminate]. apply In_nth_error in H. destruct H as [j Hj]. rewrite forget_nth in Hj. destruct (Nat.eq_dec j i) as [Ej|N]; [rewrite Ej, Nat.eqb_refl in Hj; cbn [andb] in Hj|destruct (Nat.eqb_spec j i); [contradiction|]; exists j, x; auto].
      destruct (Nat.ltb_spec i (length l)); [discriminate|]. assert (i < length l)%nat by (apply nth_error_Some; congruence). lia.
    - intros [j [x [N H]]]. exists (Some x). split; [|reflexivity]. apply nth_error_In with j. rewrite forget_nth. destruct (Nat.eqb_spec j i); [contradiction|exact H]. }
  unfold erase. destruct (existsb _ _) eqn:E.
  - split; [intro H; left; assert (length (forget i l) = 0)%nat by (rewrite H; reflexivity); rewrite forget_len in H0; destruct l; [reflexivity|discriminate]|].
    destruct (proj1 X eq_refl) as [j [x [N H]]]. intros [->|K]; [destruct j; discriminate|]. exfalso. apply N. eapply K. exact H.
  - split; [|reflexivity]. intros _. right. intros j x H. destruct (Nat.eq_dec j i) as [|N]; [assumption|]. exfalso. destruct X as [_ X]. specialize (X (ex_intro _ j (ex_intro _ x (conj N H)))). discriminate.
Qed.
Lemma Set_aux t r i t1 l' : ClearTemplates t (t_cat r) (tc_ortho t) (tc_log t) i false = (t1, Ok tt) -> lst t1 (t_cat r) (tc_ortho t) (tc_log t) <> [] ->
  at_set (lst t1 (t_cat r) (tc_ortho t) (tc_log t)) i (Some r) = Ok l' ->
  SetTemplate t r i = (set_lists t1 (tc_ortho t) (tc_log t) (mset (tc_lists t1 (tc_ortho t) (tc_log t)) (t_cat r) l'), Ok tt).
Proof.
  intros E N A. unfold SetTemplate. cbv zeta. rewrite E. cbn [andthen]. rewrite count0. unfold lst in *. destruct (mfind _ _) as [l|]; [|contradiction]. destruct l as [|x l]; [contradiction|]. rewrite A. reflexivity.
Qed.
Lemma at_set_ok l i x : (i < length l)%nat -> exists l', at_set l (Z.of_nat i) x = Ok l' /\ length l' = length l /\ nth_error l' i = Some x /\ forall j, j <> i -> nth_error l' j = nth_error l j.
Proof.
  intro H. unfold at_set. destruct (Z.ltb_spec (Z.of_nat i) 0); [lia|]. destruct (Z.leb_spec (Z.of_nat (length l)) (Z.of_nat i)); [lia|]. rewrite Nat2Z.id. apply vset_ok. exact H.
Qed.
Lemma Set_spec t r i : let c := t_cat r in let o := tc_ortho t in let g := tc_log t in
  c <> ""%string -> coherent t c -> (i < length (lst t c o g))%nat -> (length (lst t c o g) = 1%nat \/ exists j x, j <> i /\ nth_error (lst t c o g) j = Some (Some x)) ->
  exists t', SetTemplate t r (Z.of_nat i) = (t', Ok tt) /\ same_flags t t' /\
    (forall c' o' g', c' <> c \/ derived o g o' g' = false -> lst t' c' o' g' = lst t c' o' g') /\
    replaced (lst t c o g) i r (lst t' c o g) /\
    (forall o' g' x, derived o g o' g' = true -> (o', g') <> (o, g) -> nth_error (lst t' c o' g') i <> Some (Some x)).
Proof.
  intros c o g Nc H Hi Hx. destruct (clear_one t c o g i H Hi) as [t1 [E [[[F1 F2] [Oc _]] [O D]]]]. destruct (D o g (derived_refl o g)) as [D1 D2].
  assert (St : forall o' g' x, derived o g o' g' = true -> nth_error (lst t1 c o' g') i <> Some (Some x)).
  { intros o' g' x Y. destruct (D o' g' Y) as [A B]. destruct (path_dec t c o g i o' g') as [P|P]; [rewrite (A P); destruct i; discriminate|]. rewrite (B P). apply erase_nth. }
  destruct (nil_dec (erase i (lst t c o g))) as [Er|Er].
  - assert (L1 : length (lst t c o g) = 1%nat). { destruct Hx as [X|[j [x [N X]]]]; [exact X|]. apply erase_nil_iff in Er. destruct Er as [Er|Er]; [rewrite Er in Hi; simpl in Hi; lia|]. exfalso. apply N. eapply Er. exact X. }
    assert (i = 0)%nat by lia. subst i. assert (Z1 : lst t1 c o g = []) by (apply D1; exists o, g; split; [apply derived_refl|]; split; [apply derived_refl|exact Er]).
    destruct (Add_ok t1 r Nc) as [t2 [E2 [[G1 G2] [_ L2]]]]. exists t2. split.
    { unfold SetTemplate. cbv zeta. fold c o g. rewrite E. cbn [andthen]. rewrite count0, Z1. exact E2. }
    split; [split; congruence|]. rewrite F1, F2 in L2. fold c o g in L2. split; [|split].
    + intros c' o' g' X. rewrite L2. destruct X as [X|X].
      * destruct (String.eqb_spec c c'); [congruence|]. apply Oc. exact X.
      * destruct (String.eqb_spec c c') as [<-|N]; cbn [andb]; [|apply Oc; congruence]. destruct (Bool.eqb_spec o o') as [<-|]; cbn [andb]; [|apply O; exact X].
        destruct (Bool.eqb_spec g g') as [<-|]; [rewrite derived_refl in X; discriminate|apply O; exact X].
    + rewrite L2, String.eqb_refl, !eqb_reflx. cbn [andb]. rewrite Z1. split; [rewrite L1; reflexivity|]. split; [reflexivity|]. intros [|j] X; [congruence|]. destruct (lst t c o g) as [|y [|]]; try discriminate. simpl. destruct j; reflexivity.
    + intros o' g' x Y N. rewrite L2, String.eqb_refl. destruct (Bool.eqb_spec o o') as [<-|]; cbn [andb]; [|apply St; exact Y]. destruct (Bool.eqb_spec g g') as [<-|]; [congruence|apply St; exact Y].
  - assert (Z1 : lst t1 c o g = erase i (lst t c o g)).
    { destruct (path_dec t c o g i o g) as [[o2 [g2 [P1 [P2 P3]]]]|P]; [|apply D2; exact P].
      assert (X : o2 = o /\ g2 = g) by (revert P1 P2; clear; destruct o, g, o2, g2; cbn; intros; try discriminate; auto). destruct X as [-> ->]. contradiction. }
    destruct (erase_cases i (lst t c o g)) as [X|[X Le]]; [contradiction|].
    destruct (at_set_ok (lst t1 c o g) i (Some r)) as [l' [A [B1 [B2 B3]]]]; [rewrite Z1; lia|].
    pose proof (Set_aux t r (Z.of_nat i) t1 l' E) as Q. fold c o g in Q. rewrite Q by (congruence || exact A). eexists; split; [reflexivity|].
    set (t2 := set_lists t1 o g _). assert (V : forall c' o' g', lst t2 c' o' g' = if (String.eqb c c' && Bool.eqb o o' && Bool.eqb g g')%bool then l' else lst t1 c' o' g') by (intros; apply lst_set).
    split; [split; assumption|]. split; [|split].
    + intros c' o' g' Y. rewrite V. destruct Y as [Y|Y].
      * destruct (String.eqb_spec c c'); [congruence|]. apply Oc. exact Y.
      * destruct (String.eqb_spec c c') as [<-|N]; cbn [andb]; [|apply Oc; congruence]. destruct (Bool.eqb_spec o o') as [<-|]; cbn [andb]; [|apply O; exact Y].
        destruct (Bool.eqb_spec g g') as [<-|]; [rewrite derived_refl in Y; discriminate|apply O; exact Y].
    + rewrite V, String.eqb_refl, !eqb_reflx. cbn [andb]. split; [congruence|]. split; [exact B2|]. intros j Nj. rewrite (B3 j Nj), Z1, X, forget_nth. destruct (Nat.eqb_spec j i); [contradiction|reflexivity].
    + intros o' g' x Y N. rewrite V, String.eqb_refl. destruct (Bool.eqb_spec o o') as [<-|]; cbn [andb]; [|apply St; exact Y]. destruct (Bool.eqb_spec g g') as [<-|]; [congruence|apply St; exact Y].
Qed.
Lemma Set_misplaced t r i : let c := t_cat r in let o := tc_ortho t in let g := tc_log t in
  c <> ""%string -> coherent t c -> (i < length (lst t c o g))%nat -> (forall j x, nth_error (lst t c o g) j = Some (Some x) -> j = i) ->
  exists t', SetTemplate t r (Z.of_nat i) = (t', Ok tt) /\ lst t' c o g = [Some r].
Proof.
  intros c o g Nc H Hi Hx. destruct (clear_one t c o g i H Hi) as [t1 [E [[[F1 F2] _] [O D]]]]. destruct (D o g (derived_refl o g)) as [D1 D2].
  assert (Z1 : lst t1 c o g = []). { apply D1. exists o, g. split; [apply derived_refl|]. split; [apply derived_refl|]. apply erase_nil_iff. right. exact Hx. }
  destruct (Add_ok t1 r Nc) as [t2 [E2 [_ [_ L2]]]]. exists t2. split.
  - unfold SetTemplate. cbv zeta. fold c o g. rewrite E. cbn [andthen]. rewrite count0, Z1. exact E2.
  - rewrite L2, F1, F2. fold c o g. rewrite String.eqb_refl, !eqb_reflx. cbn [andb]. rewrite Z1. reflexivity.
Qed.
Lemma Set_empty t r i : t_cat r <> ""%string -> lst t (t_cat r) (tc_ortho t) (tc_log t) = [] ->
  exists t', SetTemplate t r i = (t', Ok tt) /\ lst t' (t_cat r) (tc_ortho t) (tc_log t) = [Some r].
Proof.
  intros Nc H. destruct (Add_ok t r Nc) as [t2 [E2 [_ [_ L2]]]]. exists t2. split.
  - unfold SetTemplate. cbv zeta. rewrite clear_empty by exact H. cbn [andthen]. rewrite count0, H. exact E2.
  - rewrite L2, String.eqb_refl, !eqb_reflx. cbn [andb]. rewrite H. reflexivity.
Qed.
Lemma Set_outside t r i : lst t (t_cat r) (tc_ortho t) (tc_log t) <> [] -> (i < 0 \/ Z.of_nat (length (lst t (t_cat r) (tc_ortho t) (tc_log t))) <= i)%Z ->
  SetTemplate t r i = (t, Throw STD_out_of_range).
Proof. intros N H. unfold SetTemplate. cbv zeta. rewrite clear_outside by assumption. reflexivity. Qed.
(** ** lookups *)
Lemma List_spec t cats o g : GetTemplateList t cats o g = flat_map (fun c => lst t c o g) cats.
Proof. induction cats as [|c cats IH]; [reflexivity|]. cbn [GetTemplateList flat_map]. unfold lst at 1. destruct (mfind _ _); rewrite IH; reflexivity. Qed.
Lemma find_name_app a b name : find_name (a ++ b)%list name = do f <- find_name a name; match f with Some x => Ok (Some x) | None => find_name b name end.
Proof. induction a as [|[x|] a IH]; cbn [find_name List.app rbind]; [reflexivity| |reflexivity]. destruct (String.eqb _ _); [reflexivity|exact IH]. Qed.
Lemma ByName_list t cats name o g : GetTemplateByName t cats name o g = do f <- find_name (flat_map (fun c => lst t c o g) cats) name; match f with Some x => Ok x | None => Throw INTERNAL_ERROR end.
Proof.
  induction cats as [|c cats IH]; [reflexivity|]. cbn [GetTemplateByName flat_map]. rewrite find_name_app. unfold lst at 1. destruct (mfind _ _) as [l|].
  - destruct (find_name l name) as [[x|]|e|]; cbn [rbind]; try reflexivity. exact IH.
  - cbn [find_name rbind]. exact IH.
Qed.
Lemma find_name_pre pre name : (forall e, In e pre -> exists y, e = Some y /\ t_name y <> name) -> find_name pre name = Ok None.
Proof.
  induction pre as [|e pre IH]; intro H; [reflexivity|]. destruct (H e (or_introl eq_refl)) as [y [-> N]]. cbn [find_name]. destruct (String.eqb_spec (t_name y) name); [contradiction|].
  apply IH. intros; apply H; right; assumption.
Qed.
Lemma ByName_spec t cats name o g pre : (forall e, In e pre -> exists y, e = Some y /\ t_name y <> name) ->
  (forall x post, GetTemplateList t cats o g = (pre ++ Some x :: post)%list -> t_name x = name -> GetTemplateByName t cats name o g = Ok x) /\
  (forall post, GetTemplateList t cats o g = (pre ++ None :: post)%list -> GetTemplateByName t cats name o g = UB) /\
  (GetTemplateList t cats o g = pre -> GetTemplateByName t cats name o g = Throw INTERNAL_ERROR).
Proof.
  intro H. rewrite List_spec, ByName_list. split; [|split].
  - intros x post -> E. rewrite find_name_app, (find_name_pre _ _ H). cbn [rbind find_name]. rewrite E, String.eqb_refl. reflexivity.
  - intros post ->. rewrite find_name_app, (find_name_pre _ _ H). reflexivity.
  - intros ->. rewrite (find_name_pre _ _ H). reflexivity.
Qed.
Lemma Get_spec t c i o g : GetTemplate t c (Z.of_nat i) o g = match nth_error (lst t c o g) i with Some x => Ok x | None => Throw STD_out_of_range end.
Proof.
  unfold GetTemplate, lst, at_get. destruct (mfind _ _) as [l|]; [|destruct i; reflexivity]. destruct (Z.ltb_spec (Z.of_nat i) 0); [lia|]. rewrite Nat2Z.id. reflexivity.
Qed.
Lemma clear_width_other t c c' i : coherent t c -> c' <> c -> lst t c true false <> [] ->
  exists t', ClearTemplates t c false false i true = (t', Ok tt) /\ tc_width t' = None /\ lst t' c' true false = lst t c' true false.
Proof.
  intros H N L. destruct (clear_all t c false false i H) as [t' [E [[F [A [_ W]]] B]]]. exists t'. split; [exact E|]. split; [|apply A; exact N].
  rewrite W. unfold both_empty. rewrite !B. cbn. destruct (lst t c true false); [contradiction|reflexivity].
Qed.
(** ** more about SetTemplate *)
Lemma Set_view t r i : let c := t_cat r in let o := tc_ortho t in let g := tc_log t in
  c <> ""%string -> coherent t c -> (i < length (lst t c o g))%nat -> (length (lst t c o g) = 1%nat \/ exists j x, j <> i /\ nth_error (lst t c o g) j = Some (Some x)) ->
  exists t1 t', ClearTemplates t c o g (Z.of_nat i) false = (t1, Ok tt) /\ SetTemplate t r (Z.of_nat i) = (t', Ok tt) /\ tc_width t' = tc_width t1 /\
    replaced (lst t c o g) i r (lst t' c o g) /\ (forall o' g', (o', g') <> (o, g) -> lst t' c o' g' = lst t1 c o' g').
Proof.
  intros c o g Nc H Hi Hx. destruct (clear_one t c o g i H Hi) as [t1 [E [[[F1 F2] _] [O D]]]]. destruct (D o g (derived_refl o g)) as [D1 D2]. exists t1.
  destruct (Set_spec t r i Nc H Hi Hx) as [t' [E' [_ [_ [R _]]]]]. fold c o g in R. exists t'. split; [exact E|]. split; [exact E'|].
  destruct (nil_dec (erase i (lst t c o g))) as [Er|Er].
  - assert (Z1 : lst t1 c o g = []) by (apply D1; exists o, g; split; [apply derived_refl|]; split; [apply derived_refl|exact Er]).
    destruct (Add_ok t1 r Nc) as [t2 [E2 [_ [W L2]]]].
    assert (X : SetTemplate t r (Z.of_nat i) = (t2, Ok tt)) by (unfold SetTemplate; cbv zeta; fold c o g; rewrite E; cbn [andthen]; rewrite count0, Z1; exact E2).
    rewrite E' in X. injection X as ->. split; [exact W|]. split; [exact R|]. intros o' g' N. rewrite L2, F1, F2. fold c o g. rewrite String.eqb_refl. destruct (Bool.eqb_spec o o') as [<-|]; [|reflexivity].
    destruct (Bool.eqb_spec g g') as [<-|]; [congruence|reflexivity].
  - assert (Z1 : lst t1 c o g = erase i (lst t c o g)).
    { destruct (path_dec t c o g i o g) as [[o2 [g2 [P1 [P2 P3]]]]|P]; [|apply D2; exact P].
      assert (X : o2 = o /\ g2 = g) by (revert P1 P2; clear; destruct o, g, o2, g2; cbn; intros; try discriminate; auto). destruct X as [-> ->]. contradiction. }
    destruct (erase_cases i (lst t c o g)) as [X|[X Le]]; [contradiction|].
    destruct (at_set_ok (lst t1 c o g) i (Some r)) as [l' [A _]]; [rewrite Z1; lia|].
    pose proof (Set_aux t r (Z.of_nat i) t1 l' E) as Q. fold c o g in Q. rewrite Q in E' by (congruence || exact A). injection E' as <-. split; [reflexivity|]. split; [exact R|].
    intros o' g' N. rewrite lst_set, String.eqb_refl. destruct (Bool.eqb_spec o o') as [<-|]; [|reflexivity]. destruct (Bool.eqb_spec g g') as [<-|]; [congruence|reflexivity].
Qed.
Lemma Set_coherent t r i t' : let c := t_cat r in let o := tc_ortho t in let g := tc_log t in
  c <> ""%string -> coherent t c -> (i < length (lst t c o g))%nat -> (length (lst t c o g) = 1%nat \/ exists j x, j <> i /\ nth_error (lst t c o g) j = Some (Some x)) ->
  SetTemplate t r (Z.of_nat i) = (t', Ok tt) -> coherent t' c.
Proof.
  intros c o g Nc H Hi Hx E. destruct (Set_view t r i Nc H Hi Hx) as [t1 [t2 [E1 [E2 [_ [[R _] V]]]]]]. fold c o g in E1, R, V. rewrite E in E2. injection E2 as <-.
  pose proof (clear_one_coherent t c o g i t1 H Hi E1) as C1. destruct (clear_one t c o g i H Hi) as [t3 [E3 [_ [O D]]]]. rewrite E1 in E3. injection E3 as <-.
  assert (L : forall o' g', derived o g o' g' = true -> lst t1 c o' g' = [] \/ length (lst t1 c o' g') = length (lst t c o' g')).
  { intros o' g' X. destruct (D o' g' X) as [D1 D2]. destruct (path_dec t c o g i o' g') as [P|P]; [left; auto|]. rewrite (D2 P). destruct (erase_cases i (lst t c o' g')) as [Y|[_ Y]]; auto. }
  assert (Eq : forall a b a' b' : bool, (a, b) = (a', b') \/ (a, b) <> (a', b')) by (intros [|] [|] [|] [|]; try (left; reflexivity); right; congruence).
  intros a b a' b' X. destruct (Eq a b o g) as [Y|Y].
  - injection Y as -> ->. destruct (Eq a' b' o g) as [Y'|Y']; [injection Y' as -> ->; right; reflexivity|]. rewrite (V _ _ Y'), R.
    destruct (L _ _ X) as [Z|Z]; [left; exact Z|]. destruct (H _ _ _ _ X) as [W|W]; [left; rewrite W in Z; destruct (lst t1 c a' b'); [reflexivity|discriminate]|right; congruence].
  - rewrite (V _ _ Y). destruct (Eq a' b' o g) as [Y'|Y'].
    + injection Y' as -> ->. destruct (derived o g a b) eqn:Z; [exfalso; revert X Z Y; clear; destruct a, b, o, g; cbn; intros; try discriminate; apply Y; reflexivity|].
      rewrite (O _ _ Z), R. destruct (H _ _ _ _ X) as [W|W]; [rewrite W in Hi; simpl in Hi; lia|right; exact W].
    + rewrite (V _ _ Y'). apply C1. exact X.
Qed.
(** the templates derived from the other ones stay *)
Lemma Set_derived t r i t' : let c := t_cat r in let o := tc_ortho t in let g := tc_log t in
  c <> ""%string -> coherent t c -> (i < length (lst t c o g))%nat -> (length (lst t c o g) = 1%nat \/ exists j x, j <> i /\ nth_error (lst t c o g) j = Some (Some x)) ->
  SetTemplate t r (Z.of_nat i) = (t', Ok tt) -> forall o' g' j z, derived o g o' g' = true -> (o', g') <> (o, g) -> (o || g || negb (o' && g'))%bool = true ->
  (nth_error (lst t' c o' g') j = Some (Some z) <-> j <> i /\ nth_error (lst t c o' g') j = Some (Some z)).
Proof.
  intros c o g Nc H Hi Hx E o' g' j z X N K. destruct (Set_view t r i Nc H Hi Hx) as [t1 [t2 [E1 [E2 [_ [_ V]]]]]]. fold c o g in E1, V. rewrite E in E2. injection E2 as <-.
  destruct (clear_one t c o g i H Hi) as [t3 [E3 [_ [O D]]]]. rewrite E1 in E3. injection E3 as <-. rewrite (V _ _ N). destruct (D o' g' X) as [D1 D2].
  destruct (path_dec t c o g i o' g') as [P|P].
  - rewrite (D1 P). split; [destruct j; discriminate|]. intros [Nj Hj]. exfalso. destruct P as [o2 [g2 [P1 [P2 P3]]]].
    assert (W : (o2 = o /\ g2 = g) \/ (o2 = o' /\ g2 = g')) by (revert P1 P2 K N X; clear; destruct o, g, o2, g2, o', g'; cbn; intros; try discriminate; auto; congruence).
    apply erase_nil_iff in P3. destruct W as [[-> ->]|[-> ->]].
    + destruct P3 as [P3|P3]; [rewrite P3 in Hi; simpl in Hi; lia|]. destruct Hx as [Hx|[k [x [Nk Hk]]]]; [|apply Nk; eapply P3; exact Hk].
      assert (j < length (lst t c o' g'))%nat by (apply nth_error_Some; congruence). destruct (H _ _ _ _ X) as [Y|Y]; [rewrite Y in H0; simpl in H0; lia|]. lia.
    + destruct P3 as [P3|P3]; [rewrite P3 in Hj; destruct j; discriminate|]. apply Nj. eapply P3. exact Hj.
  - rewrite (D2 P). destruct (erase_cases i (lst t c o' g')) as [Y|[Y _]]; [exfalso; apply (P o' g' X (derived_refl _ _) Y)|]. rewrite Y, forget_nth.
    destruct (Nat.eqb_spec j i) as [Ej|Nj]; cbn [andb].
    + split; [|intros [Q _]; contradiction]. destruct (Nat.ltb_spec j (length (lst t c o' g'))); [discriminate|]. intro Q. exfalso. assert (j < length (lst t c o' g'))%nat by (apply nth_error_Some; congruence). lia.
    + split; [auto|tauto].
Qed.
