(** Bounds and guess of a regular group; an irregular group has uninitialised components (C94). *)
From Verif Require Import Base F64 PolyModel LbfModel LbfSpec LbfProofs.
Open Scope Q_scope.

Lemma mapi_len {A B} (f : nat -> A -> res B) l : forall i r, mapi_res f i l = Ok r -> length r = length l.
Proof.
  induction l as [|a l IH]; intros i r E; cbn in E; [injection E as <-; reflexivity|].
  destruct (f i a) as [b| |]; try discriminate. cbn in E. destruct (mapi_res f (S i) l) as [r'| |] eqn:E'; try discriminate.
  cbn in E. injection E as <-. cbn. f_equal. eapply IH; eauto.
Qed.
Lemma mapi_nth {A B} (f : nat -> A -> res B) l : forall i r, mapi_res f i l = Ok r ->
  forall j b, nth_error r j = Some b -> exists a, nth_error l j = Some a /\ f (i + j)%nat a = Ok b.
Proof.
  induction l as [|a l IH]; intros i r E j b N; cbn in E.
  - injection E as <-. destruct j; discriminate.
  - destruct (f i a) as [b0| |] eqn:F; try discriminate. cbn in E.
    destruct (mapi_res f (S i) l) as [r'| |] eqn:E'; try discriminate. cbn in E. injection E as <-.
    destruct j as [|j]; cbn in N.
    + injection N as <-. exists a. rewrite Nat.add_0_r. auto.
    + destruct (IH _ _ E' _ _ N) as (a' & Na & Fa). exists a'. rewrite <- Nat.add_succ_comm. auto.
Qed.
Lemma mapi_at {A B} (f : nat -> A -> res B) l : forall i r, mapi_res f i l = Ok r ->
  forall j a, nth_error l j = Some a -> exists b, nth_error r j = Some b /\ f (i + j)%nat a = Ok b.
Proof.
  intros i r E j a N. assert (L := mapi_len f l i r E).
  destruct (nth_error r j) as [b|] eqn:Nb.
  - destruct (mapi_nth f l i r E j b Nb) as (a' & Na & F). exists b. split; [reflexivity|]. congruence.
  - apply nth_error_None in Nb. assert (j < length l)%nat by (apply nth_error_Some; congruence). lia.
Qed.
Lemma mapi_build {A B} (f : nat -> A -> res B) (g : nat -> A -> B) l : forall i,
  (forall j a, nth_error l j = Some a -> f (i + j)%nat a = Ok (g (i + j)%nat a)) ->
  exists r, mapi_res f i l = Ok r /\ length r = length l /\ forall j a, nth_error l j = Some a -> nth_error r j = Some (g (i + j)%nat a).
Proof.
  induction l as [|a l IH]; intros i H.
  - exists []. repeat split. intros j a N. destruct j; discriminate.
  - assert (Ha := H 0%nat a eq_refl). rewrite Nat.add_0_r in Ha.
    destruct (IH (S i)) as (r & E & L & Nr). { intros j x N. rewrite Nat.add_succ_comm. apply (H (S j) x N). }
    exists (g i a :: r). cbn. rewrite Ha. cbn. rewrite E. cbn. split; [reflexivity|]. split; [f_equal; exact L|].
    intros j x N. destruct j as [|j]; cbn in *.
    + injection N as <-. rewrite Nat.add_0_r. reflexivity.
    + rewrite <- Nat.add_succ_comm. apply Nr, N.
Qed.
Lemma mapi_total {A B} (f : nat -> A -> res B) l : forall i,
  (forall j a, nth_error l j = Some a -> exists b, f (i + j)%nat a = Ok b) -> exists r, mapi_res f i l = Ok r.
Proof.
  induction l as [|a l IH]; intros i H; [exists []; reflexivity|].
  destruct (H 0%nat a eq_refl) as (b & Fb). rewrite Nat.add_0_r in Fb.
  destruct (IH (S i)) as (r & E). { intros j x N. rewrite Nat.add_succ_comm. apply (H (S j) x N). }
  exists (b :: r). cbn. rewrite Fb. cbn. rewrite E. reflexivity.
Qed.

(** the blocks of the vectors *)
Definition block {A} (b : bool) (l : list A) : list A := if b then l else [].
Definition vel_block {A} (t : option kind) (a e : A) : list A :=
  match t with None => [a; e] | Some Ab => [a] | Some Em => [e] end.
Lemma repeat_split {A} (x : A) a b : repeat x (a + b) = (repeat x a ++ repeat x b)%list.
Proof. apply repeat_app. Qed.

Section Vectors.
Context (c : conf).

Lemma vel_stage {A} m t (P R : list (option A)) (a e : A) : length P = m ->
  (if c_vel c then
     match ltype (canon c m t) with
     | None => do v <- put (P ++ repeat None (vel_n c (nk t)) ++ R) (vA (canon c m t)) a; put v (vE (canon c m t)) e
     | Some Ab => put (P ++ repeat None (vel_n c (nk t)) ++ R) (vA (canon c m t)) a
     | Some Em => put (P ++ repeat None (vel_n c (nk t)) ++ R) (vE (canon c m t)) e
     end
   else Ok (P ++ repeat None (vel_n c (nk t)) ++ R)%list) = Ok (P ++ map Some (block (c_vel c) (vel_block t a e)) ++ R)%list.
Proof.
  intro L. unfold vel_n, canon. cbn [ltype vA vE]. destruct (c_vel c); [|reflexivity].
  destruct t as [[|]|]; cbn [nk repeat app block vel_block map].
  - apply put_mid; auto.
  - apply put_mid; auto.
  - rewrite (put_mid a P _ None m) by auto. cbn [rbind].
    change (P ++ Some a :: None :: R)%list with (P ++ [Some a] ++ None :: R)%list. rewrite app_assoc.
    rewrite (put_mid e _ _ None) by (rewrite app_length; cbn; lia). rewrite <- app_assoc. reflexivity.
Qed.
Lemma off_stage {A} m t (P R : list (option A)) (o : A) : length P = (m + vel_n c (nk t))%nat ->
  (if c_off c then put (P ++ repeat None (off_n c) ++ R) (iOff (canon c m t)) o else Ok (P ++ repeat None (off_n c) ++ R)%list)
  = Ok (P ++ map Some (block (c_off c) [o]) ++ R)%list.
Proof.
  intro L. unfold off_n, canon. cbn [iOff]. destruct (c_off c); [|reflexivity]. cbn [repeat app block map].
  apply put_mid; auto.
Qed.
Lemma poly_stage {A} m t (P R : list (option A)) (l : list A) : length l = 3%nat ->
  length P = (m + vel_n c (nk t) + off_n c)%nat ->
  (if c_poly c then match iPoly (canon c m t) with Some i => puts (P ++ repeat None 3 ++ R) i l | None => UB end
   else Ok (P ++ repeat None 3 ++ R)%list) = if c_poly c then Ok (P ++ map Some l ++ R)%list else Ok (P ++ repeat None 3 ++ R)%list.
Proof.
  intros L3 L. unfold canon. cbn [iPoly]. destruct (c_poly c); [|reflexivity]. apply puts_mid; auto.
Qed.

Lemma vel_block_len {A} t (a e : A) : length (vel_block t a e) = nk t.
Proof. destruct t as [[|]|]; reflexivity. Qed.
Lemma vel_len {A} t (a e : A) : length (block (c_vel c) (vel_block t a e)) = vel_n c (nk t).
Proof. unfold block, vel_n. destruct (c_vel c); [apply vel_block_len|reflexivity]. Qed.
Lemma off_len {A} (o : A) : length (block (c_off c) [o]) = off_n c.
Proof. unfold block, off_n. destruct (c_off c); reflexivity. Qed.

Lemma holes m t : repeat (@None (f64 * f64)) (nddl (canon c m t)) =
  (repeat None m ++ repeat None (vel_n c (nk t)) ++ repeat None (off_n c) ++ (if c_poly c then repeat None 3 else []))%list.
Proof.
  unfold canon, needed. cbn [nddl]. rewrite !repeat_split, <- !app_assoc. unfold vel_n, off_n.
  destruct (c_vel c), (c_off c), (c_poly c); reflexivity.
Qed.
Lemma holesQ m t : repeat (@None Q) (nddl (canon c m t)) =
  (repeat None m ++ repeat None (vel_n c (nk t)) ++ repeat None (off_n c) ++ (if c_poly c then repeat None 3 else []))%list.
Proof.
  unfold canon, needed. cbn [nddl]. rewrite !repeat_split, <- !app_assoc. unfold vel_n, off_n.
  destruct (c_vel c), (c_off c), (c_poly c); reflexivity.
Qed.

Definition off_bound : f64 * f64 := (Fin (offMin c / speed_of_light / norm_offset c), Fin (offMax c / speed_of_light / norm_offset c)).
Definition params {A} (t : option kind) (am : list A) (va ve o : A) (p : list A) : list A :=
  (am ++ block (c_vel c) (vel_block t va ve) ++ block (c_off c) [o] ++ block (c_poly c) p)%list.

Lemma params_len {A} t (am : list A) va ve o p : length p = 3%nat -> length (params t am va ve o p) = nddl (canon c (length am) t).
Proof.
  intro L. unfold params, canon, needed. cbn [nddl]. rewrite !app_length, vel_len, off_len. unfold vel_n, off_n, block.
  destruct (c_vel c), (c_off c), (c_poly c); cbn [length]; lia.
Qed.

Lemma bounds_regular t st bs : mapi_res (fun _ e => amp_bound e) 0 st = Ok bs ->
  make_bounds c (canon c (length st) t) st = Ok (map Some (params t bs (velA_bound c) (velE_bound c) off_bound (repeat (NInf, PInf) 3))).
Proof.
  intro E. assert (L := mapi_len _ _ _ _ E). unfold make_bounds. fold off_bound. rewrite E. cbn [rbind]. rewrite holes.
  change (repeat None (length st) ++ ?x)%list with ([] ++ repeat (@None (f64 * f64)) (length st) ++ x)%list.
  rewrite (puts_mid bs [] _ (repeat None (length st))) by (try reflexivity; rewrite repeat_length; auto).
  cbn [rbind]. cbn [app].
  rewrite (vel_stage (length st) t (map Some bs)) by (rewrite map_length; exact L).
  cbn [rbind]. rewrite app_assoc.
  rewrite (off_stage (length st) t) by (rewrite app_length, !map_length, vel_len, L; reflexivity).
  cbn [rbind]. rewrite app_assoc.
  set (P := ((map Some bs ++ map Some (block (c_vel c) (vel_block t (velA_bound c) (velE_bound c)))) ++ map Some (block (c_off c) [off_bound]))%list).
  assert (LP : length P = (length st + vel_n c (nk t) + off_n c)%nat).
  { unfold P. rewrite !app_length, !map_length, vel_len, off_len, L. reflexivity. }
  assert (S := poly_stage (length st) t P [] (repeat (NInf, PInf) 3) eq_refl LP).
  unfold params. rewrite !map_app, !app_assoc. fold P. clearbody P.
  destruct (c_poly c); cbn [block].
  - rewrite !app_nil_r in S. exact S.
  - cbn [map]. reflexivity.
Qed.

Lemma guess_regular t st np nf ga e0 rest : st = e0 :: rest -> length ga = length st ->
  make_guess c (canon c (length st) t) np nf st ga =
  Ok (map Some (params t ga (iniA c / maxE c) (iniE c / maxE c) 0
     (let q := setCoeffs np (fst (fst (poly e0)) * nf) (snd (fst (poly e0)) * nf) (snd (poly e0) * nf) in [n0 q; n1 q; n2 q]))).
Proof.
  intros E L. unfold make_guess. rewrite holesQ.
  change (repeat None (length st) ++ ?x)%list with ([] ++ repeat (@None Q) (length st) ++ x)%list.
  rewrite (puts_mid ga [] _ (repeat None (length st))) by (try reflexivity; rewrite repeat_length; auto).
  cbn [rbind]. cbn [app]. destruct (poly e0) as [[a0 a1] a2] eqn:Ep. cbn [fst snd].
  set (q := setCoeffs np (a0 * nf) (a1 * nf) (a2 * nf)). cbv zeta.
  set (V := repeat (@None Q) (vel_n c (nk t))). set (O := repeat (@None Q) (off_n c)).
  assert (HP : (if c_poly c then
             match iPoly (canon c (length st) t), st with
             | Some i, e :: _ => let '(a0, a1, a2) := poly e in
                 let q := setCoeffs np (a0 * nf) (a1 * nf) (a2 * nf) in
                 puts (map Some ga ++ V ++ O ++ (if c_poly c then repeat None 3 else [])) i [n0 q; n1 q; n2 q]
             | _, _ => UB
             end
           else Ok (map Some ga ++ V ++ O ++ (if c_poly c then repeat None 3 else []))%list)
         = Ok (map Some ga ++ V ++ O ++ map Some (block (c_poly c) [n0 q; n1 q; n2 q]))%list).
  { assert (LP : length (map Some ga ++ V ++ O) = (length st + vel_n c (nk t) + off_n c)%nat).
    { unfold V, O. rewrite !app_length, map_length, !repeat_length. lia. }
    assert (S := poly_stage (length st) t (map Some ga ++ V ++ O)%list [] [n0 q; n1 q; n2 q] eq_refl LP).
    unfold canon in *. cbn [iPoly] in *. destruct (c_poly c); cbn [block]; [|reflexivity].
    rewrite E, Ep. subst st. rewrite !app_nil_r, <- !app_assoc in S. exact S. }
  cbv zeta in HP. rewrite HP. clear HP. cbn [rbind]. unfold V.
  rewrite (vel_stage (length st) t (map Some ga)) by (rewrite map_length; exact L).
  cbn [rbind]. rewrite app_assoc. unfold O.
  rewrite (off_stage (length st) t) by (rewrite app_length, !map_length, vel_len, L; reflexivity).
  unfold params. rewrite !map_app, <- !app_assoc. reflexivity.
Qed.

(** ** irregular groups *)
Lemma vset_none {A} (v : list (option A)) : forall i x v', vset v i (Some x) = Ok v' -> forall j, j <> i -> nth_error v' j = nth_error v j.
Proof.
  induction v as [|o v IH]; intros i x v' E j N; [discriminate|]. destruct i as [|i]; cbn in E.
  - injection E as <-. destruct j; [lia|reflexivity].
  - destruct (vset v i (Some x)) as [w| |] eqn:W; try discriminate. injection E as <-.
    destruct j as [|j]; [reflexivity|]. cbn. apply (IH _ _ _ W). lia.
Qed.
Lemma put_hole {A} (v : list (option A)) i x v' j : put v i x = Ok v' -> i <> Some j -> nth_error v' j = nth_error v j.
Proof. destruct i as [i|]; [|discriminate]. cbn. intros E N. apply (vset_none _ _ _ _ E). congruence. Qed.
Lemma puts_hole {A} (l : list A) : forall (v : list (option A)) i v' j, puts v i l = Ok v' -> (j < i \/ i + length l <= j)%nat ->
  nth_error v' j = nth_error v j.
Proof.
  induction l as [|x l IH]; intros v i v' j E H; cbn in E; [injection E as <-; reflexivity|].
  destruct (vset v i (Some x)) as [w| |] eqn:W; try discriminate. cbn in E.
  rewrite (IH _ _ _ _ E) by (cbn in H; lia). apply (vset_none _ _ _ _ W). cbn in H. lia.
Qed.
Lemma nth_repeat_none {A} (x : A) n j : (j < n)%nat -> nth_error (repeat x n) j = Some x.
Proof. revert j; induction n as [|n IH]; intros j H; [lia|]. destruct j; [reflexivity|]. cbn. apply IH. lia. Qed.
End Vectors.
