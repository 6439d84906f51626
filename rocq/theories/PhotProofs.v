From Coq Require Import String Reals Qreals OrderedTypeEx.
From Verif Require Import Base F64 SortLib RangeModel RangeSpec RangeProofs TplModel TplSpec TFitModel TFitSpec TFitProofs TFitProofs2 DetModel PhotModel PhotSpec.
Open Scope Q_scope.

(** * maps *)
Lemma ltb_trans a b c : String.ltb a b = true -> String.ltb b c = true -> String.ltb a c = true.
Proof.
  unfold String.ltb. intros H1 H2. destruct (String.compare a b) eqn:E1; try discriminate. destruct (String.compare b c) eqn:E2; try discriminate.
  apply String_as_OT.cmp_lt in E1. apply String_as_OT.cmp_lt in E2. pose proof (String_as_OT.lt_trans _ _ _ E1 E2) as L. apply String_as_OT.cmp_lt in L. unfold String_as_OT.cmp in L. rewrite L. reflexivity.
Qed.
Lemma ltb_irrefl a : String.ltb a a = false.
Proof. destruct (String.ltb a a) eqn:E; [|reflexivity]. unfold String.ltb in E. destruct (String.compare a a) eqn:C; try discriminate. apply String_as_OT.cmp_lt in C. apply String_as_OT.lt_not_eq in C. exfalso. apply C. reflexivity. Qed.
Lemma ltb_total a b : a <> b -> String.ltb a b = false -> String.ltb b a = true.
Proof.
  intros N H. unfold String.ltb in *. rewrite String.compare_antisym. destruct (String.compare a b) eqn:E; try discriminate; [|reflexivity]. apply String.compare_eq_iff in E. contradiction.
Qed.
Section Maps.
  Context {A : Type}.
  Implicit Types (m : smap A) (v : A).
  Lemma ordered_cons k v m : ordered ((k, v) :: m) <-> ordered m /\ forall k' v', In (k', v') m -> String.ltb k k' = true.
  Proof.
    unfold ordered, keys. cbn [map fst]. split.
    - intros H. inversion H as [|? ? Hs Hf]; subst. split; [assumption|]. intros k' v' I0. rewrite Forall_forall in Hf. apply Hf. apply in_map_iff. exists (k', v'). auto.
    - intros [O F]. constructor; [assumption|]. apply Forall_forall. intros x X. apply in_map_iff in X. destruct X as ([k' v'] & <- & I0). cbn [fst]. exact (F _ _ I0).
  Qed.
  Lemma mput_in r k v m k' v' : In (k', v') (mput r k v m) -> (k' = k /\ v' = v) \/ In (k', v') m.
  Proof.
    induction m as [|[h u] m IH]; cbn [mput].
    - intros [E|[]]. inversion E; auto.
    - destruct (String.eqb_spec k h) as [->|N].
      + destruct r; [|auto]. intros [E|H]; [inversion E; auto|right; right; exact H].
      + destruct (String.ltb k h); [intros [E|H]; [inversion E; auto|auto]|]. intros [E|H]; [right; left; exact E|]. apply IH in H. destruct H as [H|H]; [auto|right; right; exact H].
  Qed.
  Lemma mput_ordered r k v m : ordered m -> ordered (mput r k v m).
  Proof.
    induction m as [|[h u] m IH]; intro O; cbn [mput].
    - apply ordered_cons. split; [constructor|intros ? ? []].
    - pose proof O as O'. apply ordered_cons in O'. destruct O' as [Om F]. destruct (String.eqb_spec k h) as [->|N].
      + destruct r; [|assumption]. apply ordered_cons. auto.
      + destruct (String.ltb k h) eqn:L.
        * apply ordered_cons. split; [assumption|]. intros k' v' [E|I0]; [inversion E; subst; exact L|]. exact (ltb_trans _ _ _ L (F _ _ I0)).
        * apply ordered_cons. split; [auto|]. intros k' v' I0. apply mput_in in I0. destruct I0 as [[-> ->]|I0]; [apply ltb_total; auto|eauto].
  Qed.
  Lemma mget_bound m k v : ordered m -> (mget m k = Ok v <-> bound m k v).
  Proof.
    unfold bound. induction m as [|[h u] m IH]; intro O; cbn [mget].
    - split; [discriminate|intros []].
    - apply ordered_cons in O. destruct O as [Om F]. destruct (String.eqb_spec k h) as [->|N].
      + split; [intro E; inversion E; left; reflexivity|]. intros [E|I0]; [inversion E; reflexivity|]. apply F in I0. rewrite ltb_irrefl in I0. discriminate.
      + rewrite (IH Om). split; [intro H; right; exact H|]. intros [E|H]; [inversion E; congruence|exact H].
  Qed.
  Lemma mget_cases m k : (exists v, mget m k = Ok v) \/ (mget m k = Throw STD_out_of_range /\ ~ In k (keys m)).
  Proof.
    induction m as [|[h u] m IH]; cbn [mget keys map fst]; [right; split; [reflexivity|intros []]|]. destruct (String.eqb_spec k h) as [->|N]; [left; eauto|]. destruct IH as [H|[E H]]; [auto|]. right. split; [exact E|]. intros [X|X]; [congruence|auto].
  Qed.
  Lemma mget_in m k : In k (keys m) -> exists v, mget m k = Ok v.
  Proof. intro H. destruct (mget_cases m k) as [X|[_ X]]; [exact X|contradiction]. Qed.
  Lemma mget_keys m k v : mget m k = Ok v -> In k (keys m).
  Proof. induction m as [|[h u] m IH]; cbn [mget keys map fst]; [discriminate|]. destruct (String.eqb_spec k h) as [->|N]; [left; reflexivity|right; auto]. Qed.
  Lemma mget_mput r k v m k' : ordered m -> mget (mput r k v m) k' = if String.eqb k' k then (if r then Ok v else match mget m k with Ok x => Ok x | _ => Ok v end) else mget m k'.
  Proof.
    induction m as [|[h u] m IH]; intro O; cbn [mput mget].
    - destruct (String.eqb_spec k' k); [destruct r; reflexivity|reflexivity].
    - apply ordered_cons in O. destruct O as [Om F]. destruct (String.eqb_spec k h) as [->|N].
      + destruct r; cbn [mget]; destruct (String.eqb_spec k' h); reflexivity.
      + destruct (String.ltb k h) eqn:L; cbn [mget].
        * destruct (String.eqb_spec k' k) as [Ek|N']; [subst k'|reflexivity]. destruct r; [reflexivity|]. destruct (mget m k) eqn:E; try reflexivity. exfalso. apply (mget_bound _ _ _ Om) in E. apply F in E. pose proof (ltb_trans _ _ _ L E) as Y. rewrite ltb_irrefl in Y. discriminate.
        * rewrite (IH Om). destruct (String.eqb_spec k' h) as [->|N']; [destruct (String.eqb_spec h k); [congruence|reflexivity]|]. destruct (String.eqb k' k); reflexivity.
  Qed.
  Lemma keys_nodup m : ordered m -> NoDup (keys m).
  Proof.
    unfold ordered. induction (keys m) as [|k l IH]; intro H; [constructor|]. inversion H as [|? ? Hs Hf]; subst. constructor; [|auto]. intro X. rewrite Forall_forall in Hf. apply Hf in X. rewrite ltb_irrefl in X. discriminate.
  Qed.
  Lemma ordered_nil : ordered (@nil (string * A)). Proof. constructor. Qed.
End Maps.

Lemma fill_spec : forall names flux err m, ordered m -> List.length names = List.length flux -> List.length names = List.length err ->
  ordered (fill names flux err m) /\ forall n, mget (fill names flux err m) n = match last_of (triples names flux err) n with Some d => Ok d | None => mget m n end.
Proof.
  induction names as [|k names IH]; intros flux err m O L1 L2; destruct flux as [|f flux], err as [|e err]; try discriminate; cbn [fill].
  - auto.
  - destruct (IH flux err (mput true k (mkDat f e) m)) as [P Q]; [apply mput_ordered; assumption|cbn [List.length] in *; lia|cbn [List.length] in *; lia|]. split; [exact P|]. intro n. rewrite Q. unfold triples. cbn [combine map last_of fst snd]. fold (triples names flux err).
    destruct (last_of (triples names flux err) n); [reflexivity|]. rewrite (mget_mput _ _ _ _ _ O). rewrite String.eqb_sym. destruct (String.eqb k n); reflexivity.
Qed.
Lemma NewData_spec names flux err : (List.length names = List.length flux /\ List.length names = List.length err ->
    exists m, NewData names flux err = Ok m /\ ordered m /\ forall n d, bound m n d <-> last_of (triples names flux err) n = Some d) /\
  (~ (List.length names = List.length flux /\ List.length names = List.length err) -> NewData names flux err = Throw INTERNAL_ERROR).
Proof.
  unfold NewData. destruct (Nat.eqb_spec (List.length names) (List.length flux)) as [E1|E1], (Nat.eqb_spec (List.length names) (List.length err)) as [E2|E2]; cbn [negb orb]; split; intro H; try reflexivity; try tauto.
  destruct (fill_spec names flux err [] ordered_nil E1 E2) as [O G]. eexists. split; [reflexivity|]. split; [exact O|]. intros n d. rewrite <- (mget_bound _ _ _ O), G. destruct (last_of _ n); cbn [mget]; split; intro X; inversion X; reflexivity.
Qed.
Lemma Catalog_spec : forall (l : list (string * band)) m, ordered m -> ordered (fold_left (fun c p => Add c (fst p) (snd p)) l m) /\
  forall n, mget (fold_left (fun c p => Add c (fst p) (snd p)) l m) n = match mget m n with Ok b => Ok b | _ => match first_of l n with Some b => Ok b | None => Throw STD_out_of_range end end.
Proof.
  induction l as [|[k b] l IH]; intros m O; cbn [fold_left].
  - split; [exact O|]. intro n. cbn [first_of]. destruct (mget_cases m n) as [[v ->]|[-> _]]; reflexivity.
  - cbn [fst snd]. destruct (IH (Add m k b)) as [P G]; [apply mput_ordered; exact O|]. split; [exact P|]. intro n. rewrite G. unfold Add. rewrite (mget_mput _ _ _ _ _ O). cbn [first_of]. rewrite (String.eqb_sym n k). destruct (String.eqb_spec k n) as [->|N]; [|reflexivity]. destruct (mget m n); reflexivity.
Qed.
Lemma Catalog_bands l : let c := fold_left (fun c p => Add c (fst p) (snd p)) l [] in ordered c /\ forall n b, bound c n b <-> first_of l n = Some b.
Proof.
  cbv zeta. destruct (Catalog_spec l [] ordered_nil) as [O G]. split; [exact O|]. intros n b. rewrite <- (mget_bound _ _ _ O), G. cbn [mget]. destruct (first_of l n); split; intro X; inversion X; reflexivity.
Qed.
Lemma Sorted_names c : ordered c -> exists s, Permutation s c /\ GetNameListSortedByLambda c = map fst s /\ NoDup (GetNameListSortedByLambda c) /\ StronglySorted (fun p q => b_min (snd p) <= b_min (snd q)) s.
Proof.
  intro O. unfold GetNameListSortedByLambda. set (lt := fun p q : string * band => Qltb (b_min (snd p)) (b_min (snd q))). exists (isort lt c). split; [apply isort_perm|]. split; [reflexivity|]. split.
  - apply (Permutation_NoDup (l := keys c)); [apply Permutation_map, Permutation_sym, isort_perm|apply keys_nodup; exact O].
  - assert (H : lesorted lt (isort lt c)).
    { apply isort_sorted; unfold lt; intros *.
      - rewrite Qltb_true, Qltb_false. intro; lra.
      - rewrite !Qltb_false. intros; lra. }
    unfold lesorted in H. induction H as [|a l H IH Hf]; constructor; [exact IH|]. apply Forall_forall. intros x X. rewrite Forall_forall in Hf. apply Hf in X. apply Qltb_false in X. exact X.
Qed.

(** * the integral of a band *)
Lemma sum_ext (f g : nat -> Q) l : (forall i, In i l -> f i == g i) -> sum (map f l) == sum (map g l).
Proof. induction l as [|a l IH]; intro H; [reflexivity|]. cbn [map]. change (f a + sum (map f l) == g a + sum (map g l)). rewrite (H a (or_introl eq_refl)), IH; [reflexivity|]. intros i Hi. apply H. right. exact Hi. Qed.
Lemma sum_lin (f g : nat -> Q) a b l : sum (map (fun i => a * f i + b * g i) l) == a * sum (map f l) + b * sum (map g l).
Proof. induction l as [|x l IH]; [cbn; ring|]. cbn [map]. change (a * f x + b * g x + sum (map (fun i => a * f i + b * g i) l) == a * (f x + sum (map f l)) + b * (g x + sum (map g l))). rewrite IH. ring. Qed.
Lemma sum_le (f g : nat -> Q) l : (forall i, In i l -> f i <= g i) -> sum (map f l) <= sum (map g l).
Proof. induction l as [|a l IH]; intro H; [apply Qle_refl|]. cbn [map]. change (f a + sum (map f l) <= g a + sum (map g l)). apply Qplus_le_compat; [apply H; left; reflexivity|apply IH; intros i Hi; apply H; right; exact Hi]. Qed.
Lemma quad_ext lam h h' : (forall i, (i < List.length lam)%nat -> h i == h' i) -> quad lam h == quad lam h'.
Proof. intro H. unfold quad. apply sum_ext. intros i Hi. apply in_seq in Hi. rewrite (H i), (H (S i)) by lia. reflexivity. Qed.
Lemma quad_lin lam f g a b : quad lam (fun i => a * f i + b * g i) == a * quad lam f + b * quad lam g.
Proof. unfold quad. rewrite <- sum_lin. apply sum_ext. intros i _. field. Qed.
Lemma quad_cons l0 l1 lam h : quad (l0 :: l1 :: lam) h == (h 0%nat + h 1%nat) / 2 * (light / l0 - light / l1) + quad (l1 :: lam) (fun i => h (S i)).
Proof.
  unfold quad. cbn [List.length]. replace (S (S (List.length lam)) - 1)%nat with (S (List.length lam)) by lia. replace (S (List.length lam) - 1)%nat with (List.length lam) by lia. cbn [seq map]. rewrite <- seq_shift, map_map.
  change (sum (?x :: ?l)) with (x + sum l). reflexivity.
Qed.
Lemma trapz_quad : forall lam g, List.length g = List.length lam -> trapz g lam (map (fun l => light / l) lam) == quad lam (fun i => nth i g 0 * nth i lam 0).
Proof.
  induction lam as [|l0 lam IH]; intros g L; destruct g as [|g0 g]; try discriminate; [reflexivity|]. destruct lam as [|l1 lam], g as [|g1 g]; try discriminate; [reflexivity|].
  rewrite quad_cons. change (trapz (g0 :: g1 :: g) (l0 :: l1 :: lam) (map (fun l => light / l) (l0 :: l1 :: lam))) with ((g1 * l1 + g0 * l0) / 2 * (light / l0 - light / l1) + trapz (g1 :: g) (l1 :: lam) (map (fun l => light / l) (l1 :: lam))).
  rewrite (IH (g1 :: g)) by (cbn [List.length] in *; lia). cbn [nth]. rewrite (Qplus_comm (g1 * l1)). reflexivity.
Qed.
Lemma map2_length f a b : List.length (map2 f a b) = Nat.min (List.length a) (List.length b).
Proof. revert b; induction a as [|x a IH]; intros [|y b]; cbn [map2 List.length Nat.min]; auto. Qed.
Lemma map2_nth f : forall a b i, (i < List.length a)%nat -> (i < List.length b)%nat -> nth i (map2 f a b) 0 = f (nth i a 0) (nth i b 0).
Proof. induction a as [|x a IH]; intros [|y b] i La Lb; cbn [List.length] in *; try lia. destruct i; [reflexivity|]. cbn [map2 nth]. apply IH; lia. Qed.
Lemma min_elt_spec : forall l a, In (min_elt a l) (a :: l) /\ forall x, In x (a :: l) -> min_elt a l <= x.
Proof.
  induction l as [|h l IH]; intro a; cbn [min_elt].
  - split; [left; reflexivity|]. intros x [<-|[]]. lra.
  - destruct (Qltb_spec h a) as [L|L].
    + destruct (IH h) as [I0 M]. split; [right; exact I0|]. intros x [<-|X]; [specialize (M h (or_introl eq_refl)); lra|apply M; exact X].
    + destruct (IH a) as [I0 M]. split; [destruct I0 as [I0|I0]; [left; exact I0|right; right; exact I0]|]. intros x [<-|[<-|X]]; [apply M; left; reflexivity|specialize (M a (or_introl eq_refl)); lra|apply M; right; exact X].
Qed.
Lemma NewBand_inv trans lam b : NewBand trans lam = Ok b -> List.length trans = List.length lam /\ lam <> [] /\ b_trans b = trans /\ b_lam b = lam /\ b_freq b = map (fun l => light / l) lam /\
  b_sum b == quad lam (fun i => nth i trans 0 * nth i lam 0) /\ In (b_min b) lam /\ forall l, In l lam -> b_min b <= l.
Proof.
  unfold NewBand. destruct (Nat.eqb_spec (List.length trans) (List.length lam)) as [L|L]; [|discriminate]. destruct lam as [|l0 lam]; [discriminate|]. cbn [negb]. intro H.
  assert (E : b = mkBand trans (l0 :: lam) (map (fun l => light / l) (l0 :: lam)) (trapz trans (l0 :: lam) (map (fun l => light / l) (l0 :: lam))) (min_elt l0 lam)) by (cbv zeta in H; congruence). rewrite E. cbn [b_trans b_lam b_freq b_sum b_min].
  destruct (min_elt_spec lam l0) as [A B]. (split; [|split; [|split; [|split; [|split; [|split; [|split]]]]]]); auto; [discriminate|]. apply trapz_quad. exact L.
Qed.
Lemma NewBand_cases trans lam : (List.length trans <> List.length lam -> NewBand trans lam = Throw INTERNAL_ERROR) /\ (List.length trans = List.length lam -> lam <> [] -> exists b, NewBand trans lam = Ok b) /\ NewBand [] [] = UB.
Proof.
  unfold NewBand. destruct (Nat.eqb_spec (List.length trans) (List.length lam)) as [L|L]; cbn [negb]; (split; [|split]); intros; try contradiction; try reflexivity. destruct lam; [contradiction|eauto].
Qed.
Lemma Integrate_spec trans lam b flux : NewBand trans lam = Ok b ->
  let a := quad lam (fun i => nth i lam 0 * nth i trans 0 * f_nu flux lam i) in let n := quad lam (fun i => nth i lam 0 * nth i trans 0) in
  (List.length flux <> List.length lam -> IntegrateFlux b flux = Throw INTERNAL_ERROR) /\
  (List.length flux = List.length lam -> ~ n == 0 -> exists v, IntegrateFlux b flux = Ok (Fin v) /\ v * n == a) /\
  (List.length flux = List.length lam -> n == 0 -> exists v, IntegrateFlux b flux = Ok v /\ is_finite v = false).
Proof.
  intros Hb a n. destruct (NewBand_inv _ _ _ Hb) as (L & _ & Et & El & Ef & Es & _). unfold IntegrateFlux. rewrite Et, El, Ef.
  assert (En : b_sum b == n) by (rewrite Es; apply quad_ext; intros; ring).
  split; [|split].
  - intro N. rewrite L. destruct (Nat.eqb_spec (List.length flux) (List.length lam)); [contradiction|reflexivity].
  - intros E N. rewrite L, E, Nat.eqb_refl. cbn [negb]. cbv zeta. unfold ratio_of. destruct (Qeq_bool_spec (b_sum b) 0) as [Z|Z]; [exfalso; apply N; rewrite <- En; exact Z|]. eexists. split; [reflexivity|].
    rewrite trapz_quad by (rewrite !map2_length; lia). rewrite En. setoid_replace a with (quad lam (fun i => nth i (map2 (fun f t => f * t) (map2 (fun f l => f * l * l / light) flux lam) trans) 0 * nth i lam 0)); [field; exact N|].
    apply quad_ext. intros i Hi. rewrite !map2_nth by (rewrite ?map2_length; lia). unfold f_nu. ring.
  - intros E Z. rewrite L, E, Nat.eqb_refl. cbn [negb]. cbv zeta. unfold ratio_of. destruct (Qeq_bool_spec (b_sum b) 0) as [Y|Y]; [|exfalso; apply Y; rewrite En; exact Z]. destruct (Qeq_bool _ 0); [eauto|]. destruct (Qltb _ 0); eauto.
Qed.
Lemma Flat trans lam b flux k : NewBand trans lam = Ok b -> ~ quad lam (fun i => nth i lam 0 * nth i trans 0) == 0 -> List.length flux = List.length lam ->
  (forall i, (i < List.length lam)%nat -> f_nu flux lam i == k) -> exists v, IntegrateFlux b flux = Ok (Fin v) /\ v == k.
Proof.
  intros Hb N L F. destruct (Integrate_spec _ _ _ flux Hb) as (_ & S1 & _). destruct (S1 L N) as (v & E & V). exists v. split; [exact E|]. set (n := quad lam (fun i => nth i lam 0 * nth i trans 0)) in *.
  assert (Vk : v * n == k * n).
  { rewrite V. rewrite (quad_ext lam _ (fun i => k * (nth i lam 0 * nth i trans 0) + 0 * 0)) by (intros i Hi; rewrite (F i Hi); ring). rewrite (quad_lin lam (fun i => nth i lam 0 * nth i trans 0) (fun _ => 0) k 0). fold n. ring. }
  apply (Qmult_inj_r _ _ n); auto.
Qed.
Lemma Linear trans lam b f g x y u v : NewBand trans lam = Ok b -> IntegrateFlux b f = Ok (Fin u) -> IntegrateFlux b g = Ok (Fin v) ->
  exists t, IntegrateFlux b (map2 (fun p q => x * p + y * q) f g) = Ok (Fin t) /\ t == x * u + y * v.
Proof.
  intros Hb Hf Hg. destruct (Integrate_spec _ _ _ f Hb) as (A1 & A2 & A3). destruct (Integrate_spec _ _ _ g Hb) as (B1 & B2 & B3).
  destruct (Nat.eq_dec (List.length f) (List.length lam)) as [Lf|Lf]; [|rewrite (A1 Lf) in Hf; discriminate]. destruct (Nat.eq_dec (List.length g) (List.length lam)) as [Lg|Lg]; [|rewrite (B1 Lg) in Hg; discriminate].
  destruct (Qeq_dec (quad lam (fun i => nth i lam 0 * nth i trans 0)) 0) as [Z|N]; [destruct (A3 Lf Z) as (w & E & W); rewrite E in Hf; inversion Hf; subst w; discriminate|].
  destruct (A2 Lf N) as (u' & Eu & Vu). destruct (B2 Lg N) as (v' & Ev & Vv). rewrite Eu in Hf. rewrite Ev in Hg. inversion Hf; inversion Hg; subst u' v'. clear Hf Hg.
  destruct (Integrate_spec _ _ _ (map2 (fun p q => x * p + y * q) f g) Hb) as (_ & C2 & _). destruct C2 as (t & Et & Vt); [rewrite map2_length; lia|exact N|]. exists t. split; [exact Et|].
  apply (Qmult_inj_r _ _ (quad lam (fun i => nth i lam 0 * nth i trans 0))); [exact N|]. rewrite Vt.
  setoid_replace ((x * u + y * v) * quad lam (fun i => nth i lam 0 * nth i trans 0)) with (x * (u * quad lam (fun i => nth i lam 0 * nth i trans 0)) + y * (v * quad lam (fun i => nth i lam 0 * nth i trans 0))) by ring.
  rewrite Vu, Vv, <- quad_lin. apply quad_ext. intros i Hi. unfold f_nu. rewrite map2_nth by lia. field. discriminate.
Qed.
Lemma width_nn lam i : strictly_increasing lam -> positive_lam lam -> (S i < List.length lam)%nat -> 0 <= width lam i.
Proof.
  intros I0 P Hi. unfold width. assert (A : 0 < nth i lam 0) by (apply P, nth_In; lia). assert (B : nth i lam 0 < nth (S i) lam 0) by (apply (I0 i (S i)); [lia|apply nth_error_nth'; lia|apply nth_error_nth'; lia]).
  assert (C : light / nth (S i) lam 0 <= light / nth i lam 0); [|lra]. apply Qle_shift_div_l; [exact A|]. setoid_replace (light / nth (S i) lam 0 * nth i lam 0) with (light * nth i lam 0 / nth (S i) lam 0) by (field; lra).
  apply Qle_shift_div_r; [lra|]. apply Qmult_le_l; [reflexivity|lra].
Qed.
Lemma quad_le lam h h' : strictly_increasing lam -> positive_lam lam -> (forall i, (i < List.length lam)%nat -> h i <= h' i) -> quad lam h <= quad lam h'.
Proof.
  intros I0 P H. unfold quad. apply sum_le. intros i Hi. apply in_seq in Hi. apply Qmult_le_compat_r; [|apply width_nn; auto; lia]. pose proof (H i ltac:(lia)). pose proof (H (S i) ltac:(lia)).
  apply Qle_shift_div_l; [reflexivity|]. setoid_replace ((h i + h (S i)) / 2 * 2) with (h i + h (S i)) by field. lra.
Qed.
Lemma Bounds trans lam b flux lo hi v : NewBand trans lam = Ok b -> strictly_increasing lam -> positive_lam lam -> (forall t, In t trans -> 0 <= t) ->
  (forall i, (i < List.length lam)%nat -> lo <= f_nu flux lam i <= hi) -> IntegrateFlux b flux = Ok (Fin v) -> lo <= v <= hi.
Proof.
  intros Hb I0 P T F Hv. destruct (NewBand_inv _ _ _ Hb) as (Lt & _). destruct (Integrate_spec _ _ _ flux Hb) as (A1 & A2 & A3).
  destruct (Nat.eq_dec (List.length flux) (List.length lam)) as [L|L]; [|rewrite (A1 L) in Hv; discriminate].
  destruct (Qeq_dec (quad lam (fun i => nth i lam 0 * nth i trans 0)) 0) as [Z|N]; [destruct (A3 L Z) as (w & E & W); rewrite E in Hv; inversion Hv; subst w; discriminate|].
  destruct (A2 L N) as (v' & E & V). rewrite E in Hv. inversion Hv; subst v'. set (n := quad lam (fun i => nth i lam 0 * nth i trans 0)) in *.
  assert (Nn : forall i, (i < List.length lam)%nat -> 0 <= nth i lam 0 * nth i trans 0).
  { intros i Hi. apply Qmult_le_0_compat; [apply Qlt_le_weak, P, nth_In; exact Hi|apply T, nth_In; lia]. }
  assert (Np : 0 < n).
  { assert (0 <= n). { setoid_replace 0 with (quad lam (fun _ => 0 * 0 + 0 * 0)) at 1 by (rewrite (quad_lin lam (fun _ => 0) (fun _ => 0)); ring). unfold n. apply quad_le; auto. }
    destruct (Qlt_le_dec 0 n); [assumption|]. exfalso. apply N. lra. }
  assert (Lo : lo * n <= v * n).
  { rewrite V. setoid_replace (lo * n) with (lo * n + 0 * n) by ring. unfold n. rewrite <- quad_lin. apply quad_le; auto. intros i Hi. destruct (F i Hi) as [F1 _]. pose proof (Nn i Hi) as Nni. set (w := nth i lam 0 * nth i trans 0) in *. setoid_replace (lo * w + 0 * w) with (w * lo) by ring.
    destruct (Qeq_dec w 0) as [Z|Z]; [rewrite Z, !Qmult_0_l; lra|]. apply Qmult_le_l; [lra|exact F1]. }
  assert (Hi : v * n <= hi * n).
  { rewrite V. setoid_replace (hi * n) with (hi * n + 0 * n) by ring. unfold n. rewrite <- quad_lin. apply quad_le; auto. intros i Hi. destruct (F i Hi) as [_ F1]. pose proof (Nn i Hi) as Nni. set (w := nth i lam 0 * nth i trans 0) in *. setoid_replace (hi * w + 0 * w) with (w * hi) by ring.
    destruct (Qeq_dec w 0) as [Z|Z]; [rewrite Z, !Qmult_0_l; lra|]. apply Qmult_le_l; [lra|exact F1]. }
  apply Qmult_le_r in Lo; [|exact Np]. apply Qmult_le_r in Hi; [|exact Np]. auto.
Qed.
Lemma quad_Qeq_flux trans lam b f g : NewBand trans lam = Ok b -> Forall2 Qeq f g -> forall u, IntegrateFlux b f = Ok (Fin u) -> exists v, IntegrateFlux b g = Ok (Fin v) /\ v == u.
Proof.
  intros Hb E u Hu. assert (Lfg : List.length f = List.length g) by (clear - E; induction E; cbn [List.length]; congruence). destruct (Integrate_spec _ _ _ f Hb) as (A1 & A2 & A3). destruct (Integrate_spec _ _ _ g Hb) as (B1 & B2 & B3).
  destruct (Nat.eq_dec (List.length f) (List.length lam)) as [L|L]; [|rewrite (A1 L) in Hu; discriminate].
  destruct (Qeq_dec (quad lam (fun i => nth i lam 0 * nth i trans 0)) 0) as [Z|N]; [destruct (A3 L Z) as (w & Ew & W); rewrite Ew in Hu; inversion Hu; subst w; discriminate|].
  destruct (A2 L N) as (u' & Eu & Vu). rewrite Eu in Hu. inversion Hu; subst u'. destruct (B2 ltac:(lia) N) as (v & Ev & Vv). exists v. split; [exact Ev|].
  apply (Qmult_inj_r _ _ (quad lam (fun i => nth i lam 0 * nth i trans 0))); [exact N|]. rewrite Vu, Vv. apply quad_ext. intros i Hi. unfold f_nu.
  assert (Q : nth i f 0 == nth i g 0) by (clear - E; revert i; induction E as [|x y f g XY E IH]; intros [|i]; cbn [nth]; auto; reflexivity). rewrite Q. reflexivity.
Qed.
