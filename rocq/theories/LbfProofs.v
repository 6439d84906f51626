(** Layout of the parameter vector, bounds and guess (C94). *)
From Verif Require Import Base F64 PolyModel LbfModel LbfSpec.
Open Scope Q_scope.

(** [vset] at the border *)
Lemma vset_end {A} (l r : list A) x y : vset (l ++ x :: r) (length l) y = Ok (l ++ y :: r).
Proof. induction l as [|a l IH]; cbn; [reflexivity|]. rewrite IH. reflexivity. Qed.

Lemma puts_mid {A} (l : list A) (pre post hole : list (option A)) n :
  length hole = length l -> n = length pre -> puts (pre ++ hole ++ post) n l = Ok (pre ++ map Some l ++ post)%list.
Proof.
  revert pre hole n; induction l as [|x l IH]; intros pre hole n H N; destruct hole as [|h hole]; try discriminate; cbn [puts map app].
  - reflexivity.
  - unfold put. subst n. rewrite vset_end. cbn [rbind].
    replace (pre ++ Some x :: hole ++ post)%list with ((pre ++ [Some x]) ++ hole ++ post)%list by (rewrite <- app_assoc; reflexivity).
    rewrite IH; [rewrite <- app_assoc; reflexivity|cbn in H; lia|rewrite app_length; cbn; lia].
Qed.
Lemma put_mid {A} x (pre post : list (option A)) h n : n = length pre -> put (pre ++ h :: post) (Some n) x = Ok (pre ++ Some x :: post)%list.
Proof. intro N. unfold put. subst n. apply vset_end. Qed.

Lemma defined_all {A} (d : list A) : defined (map Some d) = Ok d.
Proof. induction d as [|x d IH]; cbn; [reflexivity|]. rewrite IH. reflexivity. Qed.

Lemma defined_hole {A} (v : list (option A)) : In None v -> defined v = UB.
Proof.
  induction v as [|o v IH]; [intros []|]. intros [E|E]; [subst o; reflexivity|].
  destruct o; cbn; [rewrite (IH E)|]; reflexivity.
Qed.

Lemma same_kind_spec a b : same_kind a b = true <-> a = b.
Proof. destruct a, b; split; intro H; try reflexivity; discriminate. Qed.
Lemma same_kind_refl a : same_kind a a = true.
Proof. destruct a; reflexivity. Qed.

Lemma steps_same p k l a : snd (fst (fst a)) = Some k -> Forall (eq k) l -> fold_left (type_step p) l a = a.
Proof.
  revert a; induction l as [|x l IH]; intros a T F; [reflexivity|]. inversion F; subst.
  cbn [fold_left]. destruct a as [[[[nd pi] t] ia] ie]. cbn in T. subst t. cbn [type_step same_type].
  rewrite same_kind_refl. apply IH; auto.
Qed.
Lemma steps_all p l nd pi : fold_left (type_step p) l (nd, pi, None, Some p, Some (S p)) = ((nd + length l)%nat, (pi + length l)%nat, None, Some p, Some (S p)).
Proof.
  revert nd pi; induction l as [|x l IH]; intros nd pi; cbn [fold_left length]; [rewrite !Nat.add_0_r; reflexivity|].
  cbn [type_step same_type]. rewrite IH. repeat (apply f_equal2; [|reflexivity]). f_equal; lia.
Qed.

(** a list of kinds: a block of one kind, then possibly a different one *)
Lemma kinds_split (k : kind) (l : list kind) :
  Forall (eq k) l \/ exists a k' b, l = (a ++ k' :: b)%list /\ Forall (eq k) a /\ k' <> k.
Proof.
  induction l as [|x l [IH|(a & k' & b & E & F & N)]]; [left; constructor| |].
  - destruct (same_kind k x) eqn:K.
    + apply same_kind_spec in K. left. constructor; auto.
    + right. exists [], x, l. repeat split; [constructor|]. intro E. subst. rewrite same_kind_refl in K. discriminate.
  - destruct (same_kind k x) eqn:K.
    + apply same_kind_spec in K. right. exists (x :: a), k', b. subst. repeat split; auto.
    + right. exists [], x, l. repeat split; [constructor|]. intro Q. subst. rewrite same_kind_refl in K. discriminate.
Qed.

(** the position of the parameters when all the elements have the same kind *)
Definition vel_n (c : conf) (nk : nat) : nat := if c_vel c then nk else 0%nat.
Definition off_n (c : conf) : nat := if c_off c then 1%nat else 0%nat.

Lemma layout_same c k l : Forall (eq k) l -> l <> [] ->
  make_layout c l = Ok (mkLay (needed c (length l) 1) (if c_vel c then Some k else None)
    (if c_vel c then match k with Ab => Some (length l) | Em => None end else None)
    (if c_vel c then match k with Em => Some (length l) | Ab => None end else None)
    (if c_off c then Some (length l + vel_n c 1)%nat else None)
    (if c_poly c then Some (length l + vel_n c 1 + off_n c)%nat else None)).
Proof.
  intros F N. destruct l as [|k0 l]; [congruence|]. unfold make_layout, needed, vel_n, off_n.
  assert (k0 = k) by (inversion F; congruence). subst k0. set (m := length (k :: l)).
  destruct (c_vel c).
  - rewrite (steps_same m k) by auto.
    destruct (c_off c), (c_poly c); apply f_equal; f_equal; try apply f_equal; lia.
  - destruct (c_off c), (c_poly c); apply f_equal; f_equal; try apply f_equal; lia.
Qed.

Lemma layout_mixed c k a k' b : c_vel c = true -> Forall (eq k) a -> a <> [] -> k' <> k ->
  let m := length (a ++ k' :: b) in
  make_layout c (a ++ k' :: b) = Ok (mkLay (needed c m 2 + length b)%nat None (Some m) (Some (S m))
    (if c_off c then Some (m + 2 + length b)%nat else None)
    (if c_poly c then Some (m + 2 + length b + off_n c)%nat else None)).
Proof.
  intros V F N K m. unfold make_layout. destruct a as [|k0 a]; [congruence|].
  assert (k0 = k) by (inversion F; congruence). subst k0. cbn [app].
  change (length (k :: a ++ k' :: b)) with m. rewrite V.
  change (k :: a ++ k' :: b) with ((k :: a) ++ k' :: b)%list.
  rewrite fold_left_app, (steps_same m k (k :: a)) by auto. cbn [fold_left].
  unfold type_step at 2. cbn [same_type].
  destruct (same_kind k k') eqn:E; [apply same_kind_spec in E; congruence|].
  rewrite steps_all. unfold needed, off_n. rewrite V.
  destruct (c_off c), (c_poly c); apply f_equal; f_equal; try apply f_equal; lia.
Qed.

(** without velocities the kinds do not matter *)
Lemma layout_novel c l : c_vel c = false -> l <> [] ->
  make_layout c l = Ok (mkLay (needed c (length l) 0) None None None
    (if c_off c then Some (length l) else None) (if c_poly c then Some (length l + off_n c)%nat else None)).
Proof.
  intros V N. destruct l as [|k l]; [congruence|]. unfold make_layout, needed, off_n. rewrite V.
  destruct (c_off c), (c_poly c); apply f_equal; f_equal; try apply f_equal; lia.
Qed.


(** the layout of a regular group *)
Definition nk (t : option kind) : nat := match t with Some _ => 1%nat | None => 2%nat end.
Definition canon (c : conf) (m : nat) (t : option kind) : layout :=
  mkLay (needed c m (nk t)) (if c_vel c then t else None)
    (if c_vel c then match t with Some Em => None | _ => Some m end else None)
    (if c_vel c then match t with Some Em => Some m | Some Ab => None | None => Some (S m) end else None)
    (if c_off c then Some (m + vel_n c (nk t))%nat else None)
    (if c_poly c then Some (m + vel_n c (nk t) + off_n c)%nat else None).

Lemma nonempty_len {A} (l : list A) : l <> [] <-> (0 < length l)%nat.
Proof. destruct l; cbn; split; intro H; try congruence; try lia. Qed.

Lemma regular_layout c l : l <> [] -> regular c l ->
  exists t, make_layout c l = Ok (canon c (length l) t) /\
            (c_vel c = true -> forall k, In k l -> t = None \/ t = Some k) /\
            (c_vel c = true -> t = None -> In Em l /\ In Ab l).
Proof.
  intros N R. destruct (c_vel c) eqn:V.
  - destruct (R V) as (k & a & tail & E & F & Na & Lt). destruct tail as [|k' [|? ?]]; [| |cbn in Lt; lia].
    + rewrite app_nil_r in E. subst a. exists (Some k). rewrite (layout_same c k) by auto.
      unfold canon. rewrite V. split; [destruct k; reflexivity|]. split; [|discriminate].
      intros _ x I. right. f_equal. revert x I. apply Forall_forall. exact F.
    + destruct (same_kind k k') eqn:K.
      * apply same_kind_spec in K. subst k'. exists (Some k). rewrite (layout_same c k); auto.
        -- unfold canon. rewrite V. split; [destruct k; reflexivity|]. split; [|discriminate].
           intros _ x I. right. f_equal. revert x I. apply Forall_forall. subst l. apply Forall_app. auto.
        -- subst l. apply Forall_app. auto.
      * assert (k' <> k) by (intro; subst; rewrite same_kind_refl in K; discriminate).
        exists None. subst l. rewrite (layout_mixed c k) by auto. cbn [length].
        unfold canon. rewrite V. split; [|split].
        -- unfold vel_n, nk. rewrite V, !Nat.add_0_r. reflexivity.
        -- intros; left; reflexivity.
        -- intros _ _. destruct a as [|x a]; [congruence|]. inversion F; subst x.
           destruct k, k'; try congruence; (split; [|]); try (apply in_or_app; right; left; reflexivity); left; reflexivity.
  - exists (Some Em). rewrite layout_novel by auto. unfold canon, vel_n. rewrite V, Nat.add_0_r.
    split; [|split; discriminate]. unfold needed. rewrite V. reflexivity.
Qed.

(** an irregular group has more parameters than it needs *)
Lemma irregular_layout c l : l <> [] -> ~ regular c l ->
  exists extra lay, (0 < extra)%nat /\ make_layout c l = Ok lay /\ nddl lay = (needed c (length l) 2 + extra)%nat /\
    ltype lay = None /\ vA lay = Some (length l) /\ vE lay = Some (S (length l)) /\
    iOff lay = (if c_off c then Some (length l + 2 + extra)%nat else None) /\
    iPoly lay = (if c_poly c then Some (length l + 2 + extra + off_n c)%nat else None) /\ c_vel c = true.
Proof.
  intros N R. destruct (c_vel c) eqn:V; [|exfalso; apply R; intro; congruence].
  destruct l as [|k l]; [congruence|]. destruct (kinds_split k (k :: l)) as [F|(a & k' & b & E & F & K)].
  - exfalso. apply R. intros _. exists k, (k :: l), []. rewrite app_nil_r. repeat split; auto.
  - destruct a as [|k0 a]; [inversion E; congruence|].
    destruct b as [|y b].
    + exfalso. apply R. intros _. exists k, (k0 :: a), [k']. repeat split; auto. discriminate.
    + rewrite E. rewrite (layout_mixed c k) by (auto; discriminate).
      exists (length (y :: b)). eexists. split; [cbn; lia|]. split; [reflexivity|]. cbn. repeat split; auto.
Qed.
