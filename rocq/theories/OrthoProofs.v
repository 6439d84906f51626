From Coq Require Import String.
From Verif Require Import Base ScopeModel StoreModel StoreProofs TcatModel TcatSpec TcatProofs OrthoModel OrthoSpec.

Lemma count_flags t a b c o g : GetTemplateCount (set_flags t a b) c o g = GetTemplateCount t c o g. Proof. reflexivity. Qed.
Lemma list_one t c o g : GetTemplateList t [c] o g = lst t c o g.
Proof. rewrite List_spec. cbn. apply app_nil_r. Qed.
Lemma of_category_all c l : (forall x, In x l -> t_cat x = c) -> of_category c l = l.
Proof. unfold of_category. induction l as [|x l IH]; intro H; [reflexivity|]. cbn [filter]. rewrite (H x (or_introl eq_refl)), String.eqb_refl. f_equal. apply IH. intros; apply H; right; assumption. Qed.
Lemma of_category_other c c' l : (forall x, In x l -> t_cat x = c) -> c' <> c -> of_category c' l = [].
Proof. unfold of_category. induction l as [|x l IH]; intros H N; [reflexivity|]. cbn [filter]. rewrite (H x (or_introl eq_refl)). destruct (String.eqb_spec c c'); [congruence|]. apply IH; [|exact N]. intros; apply H; right; assumption. Qed.

Lemma nth_error_ext {A} (l l' : list A) : (forall j, nth_error l j = nth_error l' j) -> l = l'.
Proof.
  revert l'; induction l as [|x l IH]; intros [|y l'] H; [reflexivity|specialize (H 0%nat); discriminate|specialize (H 0%nat); discriminate|].
  f_equal; [specialize (H 0%nat); cbn in H; congruence|]. apply IH. intro j. exact (H (S j)).
Qed.

Section Ortho.
  Context (orth : Q -> tpl -> tpl).
  Definition oks (w : Q) (xs : list tpl) : tlist := map (fun x => Some (orth w x)) xs.
  Lemma loop_add c w xs : forall t i, ortho_loop orth t c w false i (map Some xs) = AddAll t (map (orth w) xs).
  Proof. induction xs as [|x xs IH]; intros t i; [reflexivity|]. cbn [map ortho_loop AddAll]. destruct (Add t (orth w x)) as [t1 [[]|e|]]; cbn [andthen]; auto. Qed.
  (** one sampling, from an empty list *)
  Lemma sampling_add t c w s xs : c <> ""%string -> (forall x, In x xs -> t_cat (orth w x) = c) -> lst t c false s = map Some xs -> lst t c true s = [] ->
    exists t', ortho_loop orth (set_flags t true s) c w (s && negb (Nat.eqb (GetTemplateCount (set_flags t true s) c true s) 0)) 0 (GetTemplateList (set_flags t false s) [c] false s) = (t', Ok tt) /\
      tc_width t' = tc_width t /\ (forall c' o g, lst t' c' o g = if (String.eqb c c' && o && Bool.eqb s g)%bool then oks w xs else lst t c' o g).
  Proof.
    intros Nc H L Z. rewrite count0, list_one, !lst_flags, L, Z. cbn [negb]. rewrite andb_false_r, loop_add.
    assert (HC : forall y, In y (map (orth w) xs) -> t_cat y = c) by (intros y Hy; apply in_map_iff in Hy; destruct Hy as [x [<- Hx]]; apply H; exact Hx).
    destruct (AddAll_ok (map (orth w) xs) (set_flags t true s)) as [t' [E [_ [W A]]]]; [intros r Hr; rewrite (HC r Hr); exact Nc|].
    exists t'. split; [exact E|]. split; [exact W|]. intros c' o g. rewrite A. cbn [tc_ortho tc_log set_flags]. rewrite lst_flags.
    destruct (String.eqb_spec c c') as [<-|N]; cbn [andb].
    - destruct o; cbn [Bool.eqb andb]; [|reflexivity]. destruct (Bool.eqb_spec s g) as [<-|]; [|reflexivity]. rewrite Z, (of_category_all c) by exact HC. unfold oks. rewrite map_map. reflexivity.
    - rewrite (of_category_other c c') by (auto || congruence). cbn [map]. rewrite app_nil_r. destruct (_ && _)%bool; reflexivity.
  Qed.
  (** both samplings *)
  Lemma samplings_both t c w xs ys : c <> ""%string -> (forall x, In x (xs ++ ys)%list -> t_cat (orth w x) = c) -> lst t c false false = map Some xs -> lst t c false true = map Some ys ->
    lst t c true false = [] -> lst t c true true = [] ->
    exists t', ortho_samplings orth t c w [false; true] = (t', Ok tt) /\ tc_width t' = tc_width t /\
      (forall c' o g, lst t' c' o g = if (String.eqb c c' && o)%bool then (if g then oks w ys else oks w xs) else lst t c' o g).
  Proof.
    intros Nc H L0 L1 Z0 Z1. cbn [ortho_samplings].
    destruct (sampling_add t c w false xs Nc) as [t1 [E1 [W1 V1]]]; [intros; apply H; apply in_or_app; left; assumption|exact L0|exact Z0|].
    cbn [andb] in E1 |- *. change (set_flags (set_flags t false false) true false) with (set_flags t true false). rewrite E1. cbn [andthen].
    destruct (sampling_add t1 c w true ys Nc) as [t2 [E2 [W2 V2]]]; [intros; apply H; apply in_or_app; right; assumption|rewrite V1, String.eqb_refl; cbn; exact L1|rewrite V1, String.eqb_refl; cbn; exact Z1|].
    cbn [andb] in E2 |- *. change (set_flags (set_flags t1 false true) true true) with (set_flags t1 true true). rewrite E2. cbn [andthen]. exists t2. split; [reflexivity|]. split; [congruence|].
    intros c' o g. rewrite V2, V1. destruct (String.eqb c c'); [|reflexivity]. destruct o, g; reflexivity.
  Qed.
  Definition result_ok (w : Q) (c : string) (xs ys : list tpl) (t t' : tcat) : Prop :=
    tc_ortho t' = false /\ tc_log t' = tc_log t /\ (forall c' o g, c' <> c -> lst t' c' o g = lst t c' o g) /\ (forall g, lst t' c false g = lst t c false g) /\
    lst t' c true false = oks w xs /\ lst t' c true true = oks w ys.
  Lemma after_both t0 t c w xs ys : (forall c' o g, (c' <> c \/ o = false) -> lst t c' o g = lst t0 c' o g) -> c <> ""%string -> (forall x, In x (xs ++ ys)%list -> t_cat (orth w x) = c) -> lst t c false false = map Some xs -> lst t c false true = map Some ys ->
    lst t c true false = [] -> lst t c true true = [] ->
    exists t', andthen (ortho_samplings orth t c w [false; true]) (fun t2 => (set_flags t2 false (tc_log t0), Ok tt)) = (t', Ok tt) /\ tc_width t' = tc_width t /\ result_ok w c xs ys t0 t'.
  Proof.
    intros U Nc H L0 L1 Z0 Z1. destruct (samplings_both t c w xs ys Nc H L0 L1 Z0 Z1) as [t1 [E [W V]]]. rewrite E. cbn [andthen]. eexists; split; [reflexivity|]. split; [exact W|].
    split; [reflexivity|]. split; [reflexivity|]. split; [|split; [|split]].
    - intros c' o g N. rewrite lst_flags, V. destruct (String.eqb_spec c c'); [congruence|]. apply U. left; congruence.
    - intro g. rewrite lst_flags, V, String.eqb_refl. cbn. apply U. right; reflexivity.
    - rewrite lst_flags, V, String.eqb_refl. reflexivity.
    - rewrite lst_flags, V, String.eqb_refl. reflexivity.
  Qed.
  (** the first time *)
  Lemma first_time t c w xs ys : c <> ""%string -> (forall x, In x (xs ++ ys)%list -> t_cat (orth w x) = c) -> lst t c false false = map Some xs -> lst t c false true = map Some ys ->
    lst t c true false = [] -> lst t c true true = [] ->
    exists t', Orthogonalize orth t c w = (t', Ok tt) /\ result_ok w c xs ys t t' /\ exists v, tc_width t' = Some v /\ (v == w)%Q.
  Proof.
    intros Nc H L0 L1 Z0 Z1. unfold Orthogonalize, prepare. rewrite count0, Z0. set (t1 := if width_differs t w then set_width t (Some w) else t).
    assert (T : tc_lists t1 = tc_lists t /\ exists v, tc_width t1 = Some v /\ (v == w)%Q).
    { unfold t1, width_differs. destruct (tc_width t) as [v|] eqn:E; [destruct (Qeq_bool_spec v w) as [Q|Q]; cbn [negb]|].
      - split; [reflexivity|]. exists v. auto.
      - split; [reflexivity|]. exists w. split; [reflexivity|reflexivity].
      - split; [reflexivity|]. exists w. split; [reflexivity|reflexivity]. }
    destruct T as [T [v [Wv Qv]]]. assert (V : forall c o g, lst t1 c o g = lst t c o g) by (intros; unfold lst; rewrite T; reflexivity).
    destruct (after_both t t1 c w xs ys) as [t' [E [W R]]]; try (rewrite V; assumption); auto. exists t'. split; [exact E|]. split; [exact R|]. exists v. split; [congruence|exact Qv].
  Qed.
  (** another LSF *)
  Lemma other_lsf t c w xs ys : c <> ""%string -> (forall x, In x (xs ++ ys)%list -> t_cat (orth w x) = c) -> lst t c false false = map Some xs -> lst t c false true = map Some ys ->
    width_differs t w = true -> lst t c true false <> [] ->
    exists t', Orthogonalize orth t c w = (t', Ok tt) /\ result_ok w c xs ys t t' /\ tc_width t' = None.
  Proof.
    intros Nc H L0 L1 D N. unfold Orthogonalize, prepare. rewrite count0, D. destruct (lst t c true false) as [|y l] eqn:L; [contradiction|].
    set (t1 := set_width t (Some w)). unfold ClearTemplateList, ClearTemplates.
    destruct (leaf_all 3 t1 c false 0) as [t2 [E2 [A2 B2]]]. pose proof (clear_step 4 t1 c true false 0 true) as S2. rewrite E2 in S2. cbn [fst] in S2. rewrite E2.
    destruct (leaf_all 3 t2 c true 0) as [t3 [E3 [A3 B3]]]. pose proof (clear_step 4 t2 c true true 0 true) as S3. rewrite E3 in S3. cbn [fst] in S3. rewrite E3.
    pose proof (Step_trans _ _ _ _ S2 S3) as [_ [Oc [_ W3]]].
    assert (Z0 : lst t3 c true false = []) by (rewrite B3 by reflexivity; exact A2).
    assert (V : forall g, lst t3 c false g = lst t c false g) by (intro g; rewrite B3 by reflexivity; rewrite B2 by reflexivity; reflexivity).
    destruct (after_both t t3 c w xs ys) as [t' [E [W R]]]; try (rewrite V; assumption); auto.
    { intros c' o g [X| ->]; [rewrite (Oc c' o g X); reflexivity|]. destruct (String.eqb_spec c' c) as [->|X]; [apply V|rewrite (Oc _ _ _ X); reflexivity]. }
    exists t'. split; [exact E|]. split; [exact R|]. rewrite W, W3. unfold both_empty. rewrite Z0, A3. unfold t1. rewrite !lst_width, L. reflexivity.
  Qed.
  (** same LSF *)
  Lemma prep_same t c w : width_differs t w = false -> lst t c true false <> [] ->
    prepare t c w = (let (t2, b) := hasLogRebinnedTemplatesChanged t c in (t2, Ok (if b then Some [true] else None))).
  Proof. intros D N. unfold prepare. rewrite count0, D. destruct (lst t c true false); [contradiction|reflexivity]. Qed.
  Lemma changed_spec t c : exists a b, hasLogRebinnedTemplatesChanged t c = (set_flags t a b,
    match lst t c false true, lst t c true true with [], _ => false | _ :: _, [] => true | _ :: _, lo => negb (Nat.eqb (nonnull lo) (length lo)) end).
  Proof.
    unfold hasLogRebinnedTemplatesChanged. rewrite !count0, nonnull_lst, count_lst, !lst_flags. destruct (lst t c false true) as [|x l]; [exists false, true; reflexivity|].
    exists true, true. destruct (lst t c true true); reflexivity.
  Qed.
  Lemma nonnull_oks w xs : nonnull (oks w xs) = length (oks w xs).
  Proof. unfold nonnull, oks. induction xs as [|x xs IH]; [reflexivity|]. cbn. rewrite IH. reflexivity. Qed.
  Lemma nothing_to_do t c w : width_differs t w = false -> lst t c true false <> [] ->
    (lst t c false true = [] \/ lst t c true true <> [] /\ nonnull (lst t c true true) = length (lst t c true true)) ->
    Orthogonalize orth t c w = (set_flags t false (tc_log t), Ok tt).
  Proof.
    intros D N H. unfold Orthogonalize. rewrite prep_same by assumption. destruct (changed_spec t c) as [a [b ->]].
    destruct H as [H|[H1 H2]]; [rewrite H; reflexivity|]. destruct (lst t c false true); [reflexivity|]. destruct (lst t c true true) as [|y l]; [contradiction|]. cbv zeta. rewrite H2, Nat.eqb_refl. reflexivity.
  Qed.
  Lemma log_again t c w ys : c <> ""%string -> (forall x, In x ys -> t_cat (orth w x) = c) -> lst t c false true = map Some ys ->
    width_differs t w = false -> lst t c true false <> [] -> lst t c true true = [] ->
    exists t', Orthogonalize orth t c w = (t', Ok tt) /\ tc_ortho t' = false /\ tc_log t' = tc_log t /\ tc_width t' = tc_width t /\
      (forall c' o g, lst t' c' o g = if (String.eqb c c' && o && g)%bool then oks w ys else lst t c' o g).
  Proof.
    intros Nc H L D N Z. destruct ys as [|y ys].
    - rewrite nothing_to_do; [|exact D|exact N|left; exact L]. eexists; split; [reflexivity|]. repeat split. intros c' o g. rewrite lst_flags.
      destruct (String.eqb_spec c c') as [<-|]; [|reflexivity]. destruct o, g; try reflexivity. exact Z.
    - unfold Orthogonalize. rewrite prep_same by assumption. destruct (changed_spec t c) as [a [b ->]]. rewrite L, Z. cbn [map].
      cbn [ortho_samplings]. destruct (sampling_add (set_flags t a b) c w true (y :: ys) Nc H) as [t1 [E [W V]]]; [exact L|exact Z|].
      cbn [andb] in E |- *. change (set_flags (set_flags (set_flags t a b) false true) true true) with (set_flags (set_flags t a b) true true). rewrite E. cbn [andthen].
      eexists; split; [reflexivity|]. split; [reflexivity|]. split; [reflexivity|]. split; [exact W|]. intros c' o g. rewrite lst_flags, V, lst_flags.
      destruct (String.eqb c c'), o, g; reflexivity.
  Qed.
  (** the missing templates are the first ones *)
  Lemma coherent_set t t' c l : coherent t c -> (forall o g, (o, g) <> (true, true) -> lst t' c o g = lst t c o g) -> lst t' c true true = l -> length l = length (lst t c true true) -> coherent t' c.
  Proof.
    intros H V L Le a b a' b' D.
    assert (X : forall o g, length (lst t' c o g) = length (lst t c o g)). { intros [|] [|]; try (rewrite V by congruence; reflexivity). congruence. }
    rewrite !X. destruct (H _ _ _ _ D) as [Y|Y]; [left|right; exact Y]. specialize (X a' b'). rewrite Y in X. destruct (lst t' c a' b'); [reflexivity|discriminate].
  Qed.
  Lemma loop_set c w : c <> ""%string -> forall xs1 xs2 done y t,
    (forall x, In x (xs1 ++ y :: xs2)%list -> t_cat (orth w x) = c) -> coherent t c -> tc_ortho t = true -> tc_log t = true ->
    lst t c true true = (done ++ repeat None (length xs1) ++ oks w (y :: xs2))%list ->
    exists t', ortho_loop orth t c w true (length done) (map Some (xs1 ++ y :: xs2)%list) = (t', Ok tt) /\ tc_ortho t' = true /\ tc_log t' = true /\
      (forall c' o g, lst t' c' o g = if (String.eqb c c' && o && g)%bool then (done ++ oks w (xs1 ++ y :: xs2))%list else lst t c' o g).
  Proof.
    intro Nc. induction xs1 as [|x xs1 IH]; intros xs2 done y t H Co F1 F2 L.
    - cbn [List.app map ortho_loop length repeat] in *. rewrite F1, F2, Get_spec, L, nth_error_app2, Nat.sub_diag by lia. cbn. exists t. split; [reflexivity|]. split; [exact F1|]. split; [exact F2|].
      intros c' o g. destruct (String.eqb_spec c c') as [<-|]; [|reflexivity]. destruct o, g; try reflexivity. exact L.
    - cbn [List.app map ortho_loop length repeat] in *. rewrite F1, F2, Get_spec, L. rewrite nth_error_app2, Nat.sub_diag by lia. cbn [nth_error].
      assert (Hc : t_cat (orth w x) = c) by (apply H; left; reflexivity).
      pose proof (Set_spec t (orth w x) (length done)) as Ss. cbv zeta in Ss. rewrite Hc, F1, F2 in Ss.
      destruct Ss as [t1 [E [[G1 G2] [O [[R1 [R2 R3]] _]]]]]; auto.
      { rewrite L, !app_length. cbn. lia. }
      { right. exists (length done + S (length xs1))%nat, (orth w y). split; [lia|]. rewrite L, nth_error_app2 by lia. replace (length done + S (length xs1) - length done)%nat with (S (length xs1)) by lia.
        cbn [nth_error]. rewrite nth_error_app2; rewrite repeat_length; [|lia]. rewrite Nat.sub_diag. reflexivity. }
      rewrite E. cbn [andthen].
      assert (L1 : lst t1 c true true = ((done ++ [Some (orth w x)]) ++ repeat None (length xs1) ++ oks w (y :: xs2))%list).
      { apply nth_error_ext. intro j. destruct (Nat.eq_dec j (length done)) as [->|Nj].
        - rewrite R2. rewrite <- app_assoc, nth_error_app2, Nat.sub_diag by lia. reflexivity.
        - rewrite (R3 j Nj), L. rewrite <- app_assoc. destruct (Nat.lt_ge_cases j (length done)) as [Lt|Ge]; [rewrite !nth_error_app1 by lia; reflexivity|].
          rewrite !nth_error_app2 by lia. destruct (j - length done)%nat eqn:Ej; [lia|]. reflexivity. }
      assert (V1 : forall o g, (o, g) <> (true, true) -> lst t1 c o g = lst t c o g).
      { intros o g Ne. apply O. right. destruct o, g; try reflexivity. congruence. }
      destruct (IH xs2 (done ++ [Some (orth w x)])%list y t1) as [t' [E' [F1' [F2' V']]]];
        [intros z Hz; apply H; right; exact Hz|eapply coherent_set; [exact Co|exact V1|reflexivity|exact R1]|congruence|congruence|exact L1|].
      rewrite app_length in E'. cbn [length] in E'. rewrite Nat.add_1_r in E'. exists t'. split; [exact E'|]. split; [exact F1'|]. split; [exact F2'|].
      intros c' o g. rewrite V'. destruct (String.eqb_spec c c') as [<-|N]; cbn [andb].
      + destruct o, g; cbn [andb]; try (apply V1; congruence). rewrite <- app_assoc. reflexivity.
      + apply O. left; congruence.
  Qed.
  Lemma prefix_again t c w xs1 y xs2 : c <> ""%string -> (forall x, In x (xs1 ++ y :: xs2)%list -> t_cat (orth w x) = c) -> coherent t c ->
    lst t c false true = map Some (xs1 ++ y :: xs2)%list -> width_differs t w = false -> lst t c true false <> [] ->
    lst t c true true = (repeat None (length xs1) ++ oks w (y :: xs2))%list ->
    exists t', Orthogonalize orth t c w = (t', Ok tt) /\ tc_ortho t' = false /\ tc_log t' = tc_log t /\
      (forall c' o g, lst t' c' o g = if (String.eqb c c' && o && g)%bool then oks w (xs1 ++ y :: xs2)%list else lst t c' o g).
  Proof.
    intros Nc H Co L D N Z. destruct xs1 as [|x xs1].
    - rewrite nothing_to_do; [|exact D|exact N|right; rewrite Z; split; [discriminate|apply nonnull_oks]]. eexists; split; [reflexivity|]. repeat split.
      intros c' o g. rewrite lst_flags. destruct (String.eqb_spec c c') as [<-|]; [|reflexivity]. destruct o, g; try reflexivity. exact Z.
    - unfold Orthogonalize. rewrite prep_same by assumption. destruct (changed_spec t c) as [a [b ->]].
      assert (B : (match lst t c false true, lst t c true true with [], _ => false | _ :: _, [] => true | _ :: _, lo => negb (Nat.eqb (nonnull lo) (length lo)) end) = true).
      { rewrite L, Z. cbn [List.app map repeat length]. apply negb_true_iff, Nat.eqb_neq. cbn [length].
        assert (X : forall l : tlist, (nonnull l <= length l)%nat) by (intro l; unfold nonnull; induction l as [|[u|] l IHl]; cbn; lia).
        pose proof (X (repeat None (length xs1) ++ oks w (y :: xs2))%list) as P. change (nonnull (None :: (repeat None (length xs1) ++ oks w (y :: xs2))%list)) with (nonnull (repeat None (length xs1) ++ oks w (y :: xs2))%list). lia. }
      rewrite B. cbn [ortho_samplings]. rewrite count0, list_one, !lst_flags, L, Z. cbn [repeat List.app length negb andb].
      change (set_flags (set_flags (set_flags t a b) false true) true true) with (set_flags (set_flags t a b) true true).
      destruct (loop_set c w Nc (x :: xs1) xs2 [] y (set_flags (set_flags t a b) true true) H) as [t1 [E [F1 [F2 V]]]]; [exact Co|reflexivity|reflexivity|exact Z|].
      cbn [length List.app] in E. rewrite E. cbn [andthen]. eexists; split; [reflexivity|]. split; [reflexivity|]. split; [reflexivity|]. intros c' o g. rewrite lst_flags, V. reflexivity.
  Qed.
  (** the loop stops at the first template that is there *)
  Lemma hole_stays t c w x l z lo : lst t c false true = Some x :: l -> width_differs t w = false -> lst t c true false <> [] ->
    lst t c true true = Some z :: lo -> exists t', Orthogonalize orth t c w = (t', Ok tt) /\ forall c' o g, lst t' c' o g = lst t c' o g.
  Proof.
    intros L D N Z. unfold Orthogonalize. rewrite prep_same by assumption. destruct (changed_spec t c) as [a [b ->]]. rewrite L, Z.
    cbv zeta; match goal with |- context [Nat.eqb ?p ?q] => destruct (Nat.eqb p q) end; cbn [negb]; [eexists; split; [reflexivity|]; intros; rewrite !lst_flags; reflexivity|]. cbn [ortho_samplings].
    rewrite count0, list_one, !lst_flags, L, Z. cbn [andb negb ortho_loop]. change (Z.of_nat 0) with (Z.of_nat 0). rewrite (Get_spec _ c 0). cbn [tc_ortho tc_log set_flags]. rewrite !lst_flags, Z. cbn [nth_error andthen].
    eexists; split; [reflexivity|]. intros; rewrite !lst_flags; reflexivity.
  Qed.
  Lemma stale_log t c w x l z lo ys : lst t c false false = map Some ys -> c <> ""%string -> (forall x, In x ys -> t_cat (orth w x) = c) ->
    lst t c false true = Some x :: l -> lst t c true false = [] -> lst t c true true = Some z :: lo ->
    exists t', Orthogonalize orth t c w = (t', Ok tt) /\ lst t' c true false = oks w ys /\ lst t' c true true = lst t c true true /\ (exists v, tc_width t' = Some v /\ v == w)%Q.
  Proof.
    intros L0 Nc H L Z0 Z1. unfold Orthogonalize, prepare. rewrite count0, Z0. set (t1 := if width_differs t w then set_width t (Some w) else t).
    assert (T : tc_lists t1 = tc_lists t /\ exists v, tc_width t1 = Some v /\ (v == w)%Q).
    { unfold t1, width_differs. destruct (tc_width t) as [v|] eqn:E; [destruct (Qeq_bool_spec v w) as [Q|Q]; cbn [negb]|].
      - split; [reflexivity|]. exists v. auto.
      - split; [reflexivity|]. exists w. split; [reflexivity|reflexivity].
      - split; [reflexivity|]. exists w. split; [reflexivity|reflexivity]. }
    destruct T as [T [v [Wv Qv]]]. assert (V : forall c o g, lst t1 c o g = lst t c o g) by (intros; unfold lst; rewrite T; reflexivity).
    cbn [ortho_samplings]. destruct (sampling_add t1 c w false ys Nc H) as [t2 [E2 [W2 V2]]]; [rewrite V; exact L0|rewrite V; exact Z0|].
    cbn [andb] in E2 |- *. change (set_flags (set_flags t1 false false) true false) with (set_flags t1 true false). rewrite E2. cbn [andthen].
    assert (X : lst t2 c true true = Some z :: lo) by (rewrite V2, String.eqb_refl; cbn; rewrite V; exact Z1). assert (Y : lst t2 c false true = Some x :: l) by (rewrite V2, String.eqb_refl; cbn; rewrite V; exact L).
    rewrite count0, list_one, !lst_flags, X, Y. cbn [andb negb ortho_loop]. rewrite (Get_spec _ c 0). cbn [tc_ortho tc_log set_flags]. rewrite !lst_flags, X. cbn [nth_error andthen].
    eexists; split; [reflexivity|]. rewrite !lst_flags. split; [rewrite V2, String.eqb_refl; reflexivity|]. split; [congruence|]. exists v. split; [cbn [tc_width set_flags]; congruence|exact Qv].
  Qed.
End Ortho.

Section Rebin.
  Context (needs : tpl -> bool) (rebin : tpl -> tpl).
  Lemma rebin_all_add xs : forall t, rebin_all rebin t (map Some xs) = AddAll t (map rebin xs).
  Proof. induction xs as [|x xs IH]; intro t; [reflexivity|]. cbn [map rebin_all AddAll]. destruct (Add t (rebin x)) as [t1 [[]|e|]]; cbn [andthen]; auto. Qed.
  Lemma rebin_first t c xs : c <> ""%string -> keeps_identity rebin -> (forall x, In x xs -> t_cat x = c) -> tc_ortho t = false -> lst t c false false = map Some xs -> lst t c false true = [] ->
    exists t', logRebinTemplateCatalog needs rebin t c = (t', Ok tt) /\ tc_ortho t' = false /\ tc_log t' = false /\ tc_width t' = tc_width t /\
      (forall c' o g, lst t' c' o g = if (String.eqb c c' && negb o && g)%bool then map (fun x => Some (rebin x)) xs else lst t c' o g).
  Proof.
    intros Nc K Hc F L Z. unfold logRebinTemplateCatalog. cbv zeta. cbn [tc_ortho tc_log set_flags]. rewrite F, count0, !lst_flags, Z, list_one, !lst_flags, L, rebin_all_add.
    assert (HC : forall y, In y (map rebin xs) -> t_cat y = c) by (intros y Hy; apply in_map_iff in Hy; destruct Hy as [x [<- Hx]]; rewrite (proj2 (K x)); apply Hc; exact Hx).
    match goal with |- context [AddAll ?u _] => destruct (AddAll_ok (map rebin xs) u) as [t' [E [[F1 F2] [W A]]]]; [intros r Hr; rewrite (HC r Hr); exact Nc|] end.
    rewrite E. cbn [andthen]. eexists; split; [reflexivity|]. split; [exact F1|]. split; [reflexivity|]. split; [exact W|]. intros c' o g. rewrite lst_flags, A, !lst_flags. cbn [tc_ortho tc_log set_flags].
    destruct (String.eqb_spec c c') as [<-|N]; cbn [andb].
    - destruct o, g; cbn [Bool.eqb andb negb]; try reflexivity. rewrite Z, (of_category_all c) by exact HC. rewrite map_map. reflexivity.
    - rewrite (of_category_other c c') by (auto || congruence). cbn [map]. rewrite app_nil_r. destruct (_ && _)%bool; reflexivity.
  Qed.
  Lemma rebin_null t c pre post : (forall x, In x pre -> t_cat (rebin x) <> ""%string) -> tc_ortho t = false -> lst t c false false = (map Some pre ++ None :: post)%list -> lst t c false true = [] ->
    snd (logRebinTemplateCatalog needs rebin t c) = UB.
  Proof.
    intros K F L Z. unfold logRebinTemplateCatalog. cbv zeta. cbn [tc_ortho tc_log set_flags]. rewrite F, count0, !lst_flags, Z, list_one, !lst_flags, L.
    match goal with |- context [rebin_all rebin ?u _] => generalize u end. clear L Z F. revert K. induction pre as [|x pre IH]; intros K t0; [reflexivity|]. cbn [map List.app rebin_all].
    destruct (Add_ok t0 (rebin x)) as [t1 [E _]]; [apply K; left; reflexivity|]. rewrite E. cbn [andthen]. apply IH. intros; apply K; right; assumption.
  Qed.
  Definition pick (p : tpl * tpl) : tpl := if needs (snd p) then rebin (fst p) else snd p.
  Lemma by_name t c o g xs k x : lst t c o g = map Some xs -> NoDup (map t_name xs) -> nth_error xs k = Some x -> GetTemplateByName t [c] (t_name x) o g = Ok x.
  Proof.
    intros L N H. destruct (nth_error_split xs k H) as [pre [post [E _]]].
    assert (P : forall e, In e (map (@Some tpl) pre) -> exists y, e = Some y /\ t_name y <> t_name x).
    { intros e He. apply in_map_iff in He. destruct He as [y [<- Hy]]. exists y. split; [reflexivity|]. intro Q. rewrite E, map_app in N. cbn [map] in N. apply NoDup_remove_2 in N. apply N.
      apply in_or_app. left. rewrite <- Q. apply in_map. exact Hy. }
    destruct (ByName_spec t [c] (t_name x) o g (map Some pre) P) as [A _]. apply (A x (map Some post)); [|reflexivity]. rewrite list_one, L, E, map_app. reflexivity.
  Qed.
  Lemma loop_rebin c : c <> ""%string -> keeps_identity rebin -> forall n i t xs ls, 
    lst t c false false = map Some xs -> NoDup (map t_name xs) -> lst t c false true = map Some ls -> map t_name ls = map t_name xs ->
    (forall x, In x xs -> t_cat x = c) -> coherent t c -> tc_ortho t = false -> tc_log t = true -> (i + n = length ls)%nat ->
    exists t', rebin_loop needs rebin t c i n = (t', Ok tt) /\ tc_ortho t' = false /\ tc_log t' = true /\ coherent t' c /\
      (forall c' o g, c' <> c \/ g = false -> lst t' c' o g = lst t c' o g) /\
      (exists ls', lst t' c false true = map Some ls' /\ length ls' = length ls /\ forall j l x, nth_error ls j = Some l -> nth_error xs j = Some x -> nth_error ls' j = Some (if (Nat.leb i j && needs l)%bool then rebin x else l)) /\
      (forall j z, nth_error (lst t' c true true) j = Some (Some z) <-> nth_error (lst t c true true) j = Some (Some z) /\ forall l, nth_error ls j = Some l -> (i <= j)%nat -> needs l = false).
  Proof.
    intros Nc K. induction n as [|n IH]; intros i t xs ls L0 Nd L1 Nm Hc Co F1 F2 Hn.
    - exists t. split; [reflexivity|]. split; [exact F1|]. split; [exact F2|]. split; [exact Co|]. split; [reflexivity|]. split.
      + exists ls. split; [exact L1|]. split; [reflexivity|]. intros j l x Hl Hx. assert (j < length ls)%nat by (apply nth_error_Some; congruence). destruct (Nat.leb_spec i j); [lia|exact Hl].
      + intros j z. split; [|tauto]. intro Q. split; [exact Q|]. intros l Hl Hj. assert (j < length ls)%nat by (apply nth_error_Some; congruence). lia.
    - assert (Le : length xs = length ls) by (rewrite <- (map_length t_name xs), <- Nm, map_length; reflexivity).
      cbn [rebin_loop]. rewrite F1, F2, Get_spec, L1, nth_error_map. destruct (nth_error ls i) as [l|] eqn:Hl; [|apply nth_error_None in Hl; lia]. cbn [option_map].
      destruct (nth_error xs i) as [x|] eqn:Hx; [|apply nth_error_None in Hx; lia].
      assert (Nx : t_name l = t_name x). { assert (Q : nth_error (map t_name ls) i = nth_error (map t_name xs) i) by (rewrite Nm; reflexivity). rewrite !nth_error_map, Hl, Hx in Q. cbn in Q. congruence. }
      destruct (needs l) eqn:Nl.
      + cbn [tc_ortho tc_log set_flags]. rewrite Nx, (by_name _ _ _ _ xs i x) by (assumption || rewrite ?lst_flags; assumption). set (t2 := set_flags (set_flags t false false) false true).
        assert (Hc2 : t_cat (rebin x) = c) by (rewrite (proj2 (K x)); apply Hc; eapply nth_error_In; exact Hx).
        assert (A1 : (i < length (lst t2 c false true))%nat) by (unfold t2; rewrite !lst_flags, L1, map_length; apply nth_error_Some; congruence).
        assert (A2 : length (lst t2 c false true) = 1%nat \/ exists j y, j <> i /\ nth_error (lst t2 c false true) j = Some (Some y)).
        { unfold t2. rewrite !lst_flags, L1, map_length. destruct (Nat.eq_dec (length ls) 1) as [Q|Q]; [left; exact Q|right]. set (j := if Nat.eqb i 0 then 1%nat else 0%nat).
          assert (j <> i /\ (j < length ls)%nat) as [J1 J2] by (unfold j; destruct (Nat.eqb_spec i 0); split; lia).
          destruct (nth_error ls j) as [y|] eqn:Hy; [|apply nth_error_None in Hy; lia]. exists j, y. split; [exact J1|]. rewrite nth_error_map, Hy. reflexivity. }
        pose proof (Set_spec t2 (rebin x) i) as Ss. cbv zeta in Ss. rewrite Hc2 in Ss. change (tc_ortho t2) with false in Ss. change (tc_log t2) with true in Ss.
        destruct (Ss Nc Co A1 A2) as [t3 [E [[G1 G2] [O [[R1 [R2 R3]] _]]]]]. clear Ss. rewrite E. cbn [andthen].
        pose proof (Set_coherent t2 (rebin x) i t3) as Sc. cbv zeta in Sc. rewrite Hc2 in Sc. change (tc_ortho t2) with false in Sc. change (tc_log t2) with true in Sc. specialize (Sc Nc Co A1 A2 E).
        pose proof (Set_derived t2 (rebin x) i t3) as Sd. cbv zeta in Sd. rewrite Hc2 in Sd. change (tc_ortho t2) with false in Sd. change (tc_log t2) with true in Sd. specialize (Sd Nc Co A1 A2 E).
        change (lst t2) with (lst t) in *. rewrite L1 in R1, R3.
        destruct (nth_error_split ls i Hl) as [la [lb [El Ela]]].
        assert (L1' : lst t3 c false true = map Some (la ++ rebin x :: lb)%list).
        { apply nth_error_ext. intro j. rewrite nth_error_map. destruct (Nat.eq_dec j i) as [->|Nj].
          - rewrite R2. rewrite nth_error_app2 by lia. rewrite Ela, Nat.sub_diag. reflexivity.
          - rewrite (R3 j Nj), nth_error_map, El. destruct (Nat.lt_ge_cases j i); [rewrite !nth_error_app1 by lia; reflexivity|]. rewrite !nth_error_app2 by lia. destruct (j - length la)%nat eqn:Ej; [lia|reflexivity]. }
        destruct (IH (S i) t3 xs (la ++ rebin x :: lb)%list) as [t' [E' [F1' [F2' [Co' [O' [[ls' [B1 [B2 B3]]] D']]]]]]].
        { rewrite O by (right; reflexivity). exact L0. } { exact Nd. } { exact L1'. }
        { rewrite <- Nm, El, !map_app. cbn [map]. rewrite (proj1 (K x)), Nx. reflexivity. }
        { exact Hc. } { exact Sc. } { exact G1. } { exact G2. } { rewrite <- Hn, El, !app_length in *. cbn in *. lia. }
        exists t'. split; [exact E'|]. split; [exact F1'|]. split; [exact F2'|]. split; [exact Co'|]. split.
        { intros c' o g Q. rewrite O' by exact Q. apply O. destruct Q as [Q| ->]; [left; exact Q|right; destruct o; reflexivity]. }
        split.
        { exists ls'. split; [exact B1|]. split; [rewrite B2, El, !app_length; reflexivity|]. intros j l2 x2 H2 H3.
          destruct (Nat.eq_dec j i) as [->|Nj].
          - assert (l2 = l) by congruence. assert (x2 = x) by congruence. subst l2 x2. rewrite (B3 i (rebin x) x); [|rewrite nth_error_app2 by lia; rewrite Ela, Nat.sub_diag; reflexivity|exact Hx].
            destruct (Nat.leb_spec (S i) i); [lia|]. destruct (Nat.leb_spec i i); [|lia]. rewrite Nl. reflexivity.
          - rewrite (B3 j l2 x2); [|rewrite <- H2, El; destruct (Nat.lt_ge_cases j i); [rewrite !nth_error_app1 by lia; reflexivity|]; rewrite !nth_error_app2 by lia; destruct (j - length la)%nat eqn:Ej; [lia|reflexivity]|exact H3].
            destruct (Nat.leb_spec (S i) j), (Nat.leb_spec i j); try lia; reflexivity. }
        { intros j z. rewrite D'. rewrite (Sd true true j z) by (reflexivity || congruence). split.
          - intros [[Nj Hj] Q]. split; [exact Hj|]. intros l2 H2 Hij. apply Q; [|lia]. rewrite <- H2, El. destruct (Nat.lt_ge_cases j i); [rewrite !nth_error_app1 by lia; reflexivity|]. rewrite !nth_error_app2 by lia. destruct (j - length la)%nat eqn:Ej; [lia|reflexivity].
          - intros [Hj Q]. assert (Nj : j <> i) by (intros ->; specialize (Q l Hl (le_n i)); congruence). split; [split; assumption|]. intros l2 H2 Hij. apply Q; [|lia]. rewrite <- H2, El. destruct (Nat.lt_ge_cases j i); [rewrite !nth_error_app1 by lia; reflexivity|]. rewrite !nth_error_app2 by lia. destruct (j - length la)%nat eqn:Ej; [lia|reflexivity]. }
      + destruct (IH (S i) t xs ls L0 Nd L1 Nm Hc Co F1 F2) as [t' [E' [F1' [F2' [Co' [O' [[ls' [B1 [B2 B3]]] D']]]]]]]; [lia|].
        exists t'. split; [exact E'|]. split; [exact F1'|]. split; [exact F2'|]. split; [exact Co'|]. split; [exact O'|]. split.
        { exists ls'. split; [exact B1|]. split; [exact B2|]. intros j l2 x2 H2 H3. rewrite (B3 j l2 x2 H2 H3). destruct (Nat.leb_spec (S i) j), (Nat.leb_spec i j); try lia; try reflexivity.
          assert (j = i) by lia. subst j. assert (l2 = l) by congruence. subst l2. rewrite Nl. reflexivity. }
        { intros j z. rewrite D'. split; intros [Hj Q]; (split; [exact Hj|]); intros l2 H2 Hij; [|apply Q; [exact H2|lia]]. destruct (Nat.eq_dec j i) as [->|Nj]; [congruence|]. apply Q; [exact H2|lia]. }
  Qed.
  Lemma rebin_again t c xs ls : c <> ""%string -> keeps_identity rebin ->
    lst t c false false = map Some xs -> NoDup (map t_name xs) -> lst t c false true = map Some ls -> map t_name ls = map t_name xs -> ls <> [] ->
    (forall x, In x xs -> t_cat x = c) -> coherent t c -> tc_ortho t = false ->
    exists t', logRebinTemplateCatalog needs rebin t c = (t', Ok tt) /\ tc_ortho t' = false /\ tc_log t' = false /\ coherent t' c /\
      (forall c' o g, c' <> c \/ g = false -> lst t' c' o g = lst t c' o g) /\
      lst t' c false true = map (fun p => Some (pick p)) (combine xs ls) /\
      (forall j z, nth_error (lst t' c true true) j = Some (Some z) <-> nth_error (lst t c true true) j = Some (Some z) /\ forall l, nth_error ls j = Some l -> needs l = false).
  Proof.
    intros Nc K L0 Nd L1 Nm Ne Hc Co F. unfold logRebinTemplateCatalog. cbv zeta. cbn [tc_ortho tc_log set_flags]. rewrite F, count0, count_lst, !lst_flags, L1, map_length.
    assert (Q : (match map Some ls with [] => true | _ :: _ => false end) = false) by (destruct ls; [contradiction|reflexivity]). rewrite Q.
    destruct (loop_rebin c Nc K (length ls) 0 (set_flags t false true) xs ls L0 Nd L1 Nm Hc Co eq_refl eq_refl eq_refl) as [t' [E [F1 [F2 [Co' [O [[ls' [B1 [B2 B3]]] D]]]]]]].
    rewrite E. cbn [andthen]. eexists; split; [reflexivity|]. split; [exact F1|]. split; [reflexivity|]. split; [exact Co'|]. split; [intros c' o g Hq; rewrite lst_flags; apply O; exact Hq|]. split.
    - rewrite lst_flags, B1. rewrite <- (map_map pick Some). f_equal. assert (Le : length xs = length ls) by (rewrite <- (map_length t_name xs), <- Nm, map_length; reflexivity).
      apply nth_error_ext. intro j. rewrite nth_error_map. destruct (nth_error ls j) as [l|] eqn:Hl.
      + assert (j < length ls)%nat by (apply nth_error_Some; congruence). destruct (nth_error xs j) as [x|] eqn:Hx; [|apply nth_error_None in Hx; lia]. rewrite (B3 j l x Hl Hx). cbn [Nat.leb andb].
        assert (X : nth_error (combine xs ls) j = Some (x, l)). { clear - Hl Hx. revert xs ls Hl Hx. induction j; intros [|a xs] [|b ls] Hl Hx; try discriminate; cbn in *; [congruence|]. apply IHj; assumption. }
        rewrite X. reflexivity.
      + apply nth_error_None in Hl. assert (X : nth_error (combine xs ls) j = None) by (apply nth_error_None; rewrite combine_length; lia). rewrite X. apply nth_error_None. lia.
    - intros j z. rewrite lst_flags, D. split; intros [Hj P]; (split; [exact Hj|]); intros l Hl; [apply P; [exact Hl|lia]|intros _; apply P; exact Hl].
  Qed.
  (** the templates added since are not rebinned *)
  Lemma rebin_missing t c xs ls x post : c <> ""%string -> keeps_identity rebin ->
    lst t c false true = map Some ls -> ls <> [] -> (forall l, In l ls -> needs l = false) -> tc_ortho t = false -> lst t c false false = (map Some xs ++ Some x :: post)%list -> length xs = length ls ->
    exists t', logRebinTemplateCatalog needs rebin t c = (t', Ok tt) /\ forall c' o g, lst t' c' o g = lst t c' o g.
  Proof.
    intros Nc K L1 Ne Hn F _ _. unfold logRebinTemplateCatalog. cbv zeta. cbn [tc_ortho tc_log set_flags]. rewrite F, count0, count_lst, !lst_flags, L1, map_length.
    assert (Q : (match map Some ls with [] => true | _ :: _ => false end) = false) by (destruct ls; [contradiction|reflexivity]). rewrite Q.
    assert (A : forall n i, (i + n = length ls)%nat -> rebin_loop needs rebin (set_flags t false true) c i n = (set_flags t false true, Ok tt)).
    { induction n as [|n IH]; intros i Hi; [reflexivity|]. cbn [rebin_loop]. cbn [tc_ortho tc_log set_flags]. rewrite Get_spec, lst_flags, L1, nth_error_map. destruct (nth_error ls i) as [l|] eqn:Hl; [|apply nth_error_None in Hl; lia].
      cbn [option_map]. rewrite (Hn l) by (eapply nth_error_In; exact Hl). apply IH. lia. }
    rewrite A by lia. cbn [andthen]. eexists; split; [reflexivity|]. intros; rewrite !lst_flags; reflexivity.
  Qed.
End Rebin.

Lemma same_width t w v : tc_width t = Some v -> (v == w)%Q -> width_differs t w = false.
Proof. intros H E. unfold width_differs. rewrite H. destruct (Qeq_bool_spec v w); [reflexivity|contradiction]. Qed.
Lemma diff_width t w : (tc_width t = None \/ exists v, tc_width t = Some v /\ ~ (v == w)%Q) -> width_differs t w = true.
Proof. intros [H|[v [H E]]]; unfold width_differs; rewrite H; [reflexivity|]. destruct (Qeq_bool_spec v w); [contradiction|reflexivity]. Qed.
Lemma other_category orth t c c' w1 w2 xs ys xs' ys' : c' <> c -> c' <> ""%string -> (forall x, In x (xs' ++ ys')%list -> t_cat (orth w2 x) = c') ->
  lst t c' false false = map Some xs' -> lst t c' false true = map Some ys' -> lst t c' true false = [] -> lst t c' true true = [] ->
  xs <> [] -> ys <> [] -> lst t c false true = map Some ys -> lst t c true false = oks orth w1 xs -> lst t c true true = oks orth w1 ys ->
  exists t1 t2, Orthogonalize orth t c' w2 = (t1, Ok tt) /\ Orthogonalize orth t1 c w2 = (t2, Ok tt) /\
    lst t2 c true false = oks orth w1 xs /\ lst t2 c true true = oks orth w1 ys.
Proof.
  intros N Nc H L0 L1 Z0 Z1 Nx Ny Ll A0 A1. destruct (first_time orth t c' w2 xs' ys' Nc H L0 L1 Z0 Z1) as [t1 [E [[_ [_ [O _]]] [v [W Q]]]]].
  exists t1. assert (N' : c <> c') by congruence.
  assert (E2 : Orthogonalize orth t1 c w2 = (set_flags t1 false (tc_log t1), Ok tt)).
  { apply nothing_to_do.
    - eapply same_width; eassumption.
    - rewrite (O _ _ _ N'), A0. destruct xs; [contradiction|discriminate].
    - right. rewrite (O _ _ _ N'), A1. split; [destruct ys; [contradiction|discriminate]|apply nonnull_oks]. }
  eexists. split; [exact E|]. split; [exact E2|]. rewrite !lst_flags, !(O _ _ _ N'). auto.
Qed.
