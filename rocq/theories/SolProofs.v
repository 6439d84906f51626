(** C91: the elements. *)
From Coq Require Import String Sorting.Permutation Sorting.Sorted.
From Verif Require Import Base RangeModel RangeProofs F64 PhotModel PhotSpec PhotProofs RulesModel LyaModel SolModel SolSpec.
Open Scope Q_scope.

(** ** the identifiers *)
Lemma lookup_ids l : forall n m id, NoDup (map l_id l) -> lookup_id (ids_from n l m) id =
  match find_index (fun x => Z.eqb (l_id x) id) l with Some i => Some (n + i)%nat | None => lookup_id m id end.
Proof.
  induction l as [|x t IH]; intros n m id D; [reflexivity|]. cbn [ids_from find_index]. inversion D as [|? ? Ni Dt]; subst. rewrite (IH (S n) _ id Dt).
  destruct (Z.eqb_spec (l_id x) id) as [E|E].
  - assert (F : find_index (fun x0 => Z.eqb (l_id x0) id) t = None).
    { clear -Ni E. subst id. induction t as [|y u IH]; [reflexivity|]. cbn [find_index]. destruct (Z.eqb_spec (l_id y) (l_id x)) as [E|_]; [exfalso; apply Ni; left; exact E|].
      rewrite IH; [reflexivity|]. intro I. apply Ni. right. exact I. }
    rewrite F. cbn [lookup_id]. destruct (Z.eqb_spec (l_id x) id); [|contradiction]. f_equal. lia.
  - destruct (find_index (fun x0 => Z.eqb (l_id x0) id) t) as [i|]; cbn [option_map]; [f_equal; lia|]. cbn [lookup_id]. destruct (Z.eqb_spec (l_id x) id); [contradiction|reflexivity].
Qed.
Lemma find_index_some {A} (p : A -> bool) l i : find_index p l = Some i -> exists x, nth_error l i = Some x /\ p x = true.
Proof.
  revert i. induction l as [|x t IH]; intros i E; [discriminate|]. cbn [find_index] in E. destruct (p x) eqn:P; [injection E as <-; exists x; auto|].
  destruct (find_index p t) as [j|]; [|discriminate]. cbn [option_map] in E. injection E as <-. destruct (IH j eq_refl) as (y & N & Y). exists y. auto.
Qed.
Lemma find_index_none {A} (p : A -> bool) l : find_index p l = None -> forall i x, nth_error l i = Some x -> p x = false.
Proof.
  induction l as [|y t IH]; intros E i x N; [destruct i; discriminate|]. cbn [find_index] in E. destruct (p y) eqn:P; [discriminate|].
  destruct (find_index p t) as [j|]; [discriminate|]. destruct i as [|i]; [injection N as <-; exact P|apply (IH eq_refl i x N)].
Qed.
Lemma nth_unique {A B} (f : A -> B) l : NoDup (map f l) -> forall i j x y, nth_error l i = Some x -> nth_error l j = Some y -> f x = f y -> i = j.
Proof.
  intros D i j x y N1 N2 E. apply (proj1 (NoDup_nth_error (map f l)) D i j).
  - rewrite map_length. apply (nth_error_len _ _ _ N1).
  - rewrite !nth_error_map, N1, N2. cbn. congruence.
Qed.
Lemma nodup_app_l {A} (l m : list A) : NoDup (l ++ m) -> NoDup l.
Proof. induction l as [|x t IH]; intro D; [constructor|]. inversion D as [|? ? Ni Dt]; subst. constructor; [intro I; apply Ni; apply in_or_app; auto|auto]. Qed.
Lemma nodup_app_r {A} (l m : list A) : NoDup (l ++ m) -> NoDup m.
Proof. induction l as [|x t IH]; intro D; [exact D|]. inversion D; subst. auto. Qed.
Lemma nodup_app_x {A} (l m : list A) : NoDup (l ++ m) -> forall x, In x l -> In x m -> False.
Proof. induction l as [|y t IH]; intros D x I J; [destruct I|]. inversion D as [|? ? Ni Dt]; subst. destruct I as [E|I]; [subst y; apply Ni; apply in_or_app; auto|apply (IH Dt x I J)]. Qed.
Lemma getLine_spec e id : t_ids e = ids_from 0 (t_lines e) [] -> distinct_ids (t_lines e) ->
  match getLineIndex e id with Some i => exists x, nth_error (t_lines e) i = Some x /\ l_id x = id | None => forall i x, nth_error (t_lines e) i = Some x -> l_id x <> id end.
Proof.
  intros E D. unfold getLineIndex. rewrite E, (lookup_ids _ _ _ _ D). destruct (find_index (fun x => Z.eqb (l_id x) id) (t_lines e)) as [i|] eqn:F.
  - destruct (find_index_some _ _ _ F) as (x & N & P). apply Z.eqb_eq in P. exists x. auto.
  - cbn [lookup_id]. intros i x N. pose proof (find_index_none _ _ F i x N) as P. apply Z.eqb_neq. exact P.
Qed.
Lemma elt_distinct es e : elts_ok es -> In e es -> elt_ok e /\ distinct_ids (t_lines e).
Proof.
  intros (F & D) I. rewrite Forall_forall in F. split; [apply F; exact I|]. unfold distinct_ids in *. clear F. induction es as [|e' t IH]; [destruct I|]. cbn [map concat] in D. rewrite map_app in D.
  destruct I as [<-|I]; [apply (nodup_app_l _ _ D)|apply IH; [exact (nodup_app_r _ _ D)|exact I]].
Qed.
Lemma at_in es k i x : at_line es k i x -> In x (concat (map t_lines es)).
Proof. intros (e & N & Nx). apply in_concat. exists (t_lines e). split; [apply in_map; apply (nth_error_In _ _ N)|apply (nth_error_In _ _ Nx)]. Qed.
Lemma at_unique es k i x k' i' x' : distinct_ids (concat (map t_lines es)) -> at_line es k i x -> at_line es k' i' x' -> l_id x = l_id x' -> k = k' /\ i = i'.
Proof.
  revert k k'. induction es as [|e t IH]; intros k k' D A A' E; [destruct A as (e & N & _); destruct k; discriminate|].
  unfold distinct_ids in D. cbn [map concat] in D. rewrite map_app in D. destruct A as (e1 & N1 & M1), A' as (e2 & N2 & M2).
  destruct k as [|k], k' as [|k']; cbn in N1, N2.
  - injection N1 as <-. injection N2 as <-. split; [reflexivity|]. apply (nth_unique l_id (t_lines e) (nodup_app_l _ _ D) _ _ x x'); auto.
  - exfalso. injection N1 as <-. apply (nodup_app_x _ _ D (l_id x)); [apply in_map; apply (nth_error_In _ _ M1)|]. rewrite E. apply in_map. apply (at_in t k' i'). exists e2. auto.
  - exfalso. injection N2 as <-. apply (nodup_app_x _ _ D (l_id x)); [rewrite E; apply in_map; apply (nth_error_In _ _ M2)|]. apply in_map. apply (at_in t k i). exists e1. auto.
  - destruct (IH k k' (nodup_app_r _ _ D)) as (A1 & A2); [exists e1; auto|exists e2; auto|exact E|]. auto.
Qed.
Lemma find_spec es id : elts_ok es -> match findElementIndex es id with
  | Some (k, i) => exists x, at_line es k i x /\ l_id x = id
  | None => forall k i x, at_line es k i x -> l_id x <> id end.
Proof.
  unfold findElementIndex. assert (G : forall es k0, elts_ok es -> match find_from k0 es id with
    | Some (k, i) => (k0 <= k)%nat /\ exists x, at_line es (k - k0) i x /\ l_id x = id | None => forall k i x, at_line es k i x -> l_id x <> id end).
  { clear es. induction es as [|e t IH]; intros k0 W; [intros k i x (e & N & _); destruct k; discriminate|]. cbn [find_from].
    destruct (elt_distinct _ e W (or_introl eq_refl)) as ((_ & E & _) & De). pose proof (getLine_spec e id E De) as H. destruct (getLineIndex e id) as [i|].
    - destruct H as (x & N & I). split; [lia|]. exists x. rewrite Nat.sub_diag. split; [exists e; auto|exact I].
    - assert (Wt : elts_ok t). { destruct W as (F & D). inversion F; subst. split; [assumption|]. unfold distinct_ids in *. cbn [map concat] in D. rewrite map_app in D. apply (nodup_app_r _ _ D). }
      specialize (IH (S k0) Wt). destruct (find_from (S k0) t id) as [[k i]|].
      + destruct IH as (L & x & (e' & N & M) & I). split; [lia|]. exists x. split; [|exact I]. exists e'. replace (k - k0)%nat with (S (k - S k0)) by lia. auto.
      + intros k i x (e' & N & M). destruct k as [|k]; [injection N as <-; apply (H i x M)|apply (IH k i x); exists e'; auto]. }
  intro W. specialize (G es 0%nat W). destruct (find_from 0 es id) as [[k i]|]; [|exact G]. rewrite Nat.sub_0_r in G. apply G.
Qed.
Lemma find_at es k i x : elts_ok es -> at_line es k i x -> findElementIndex es (l_id x) = Some (k, i).
Proof.
  intros W A. pose proof (find_spec es (l_id x) W) as H. destruct (findElementIndex es (l_id x)) as [[k' i']|].
  - destruct H as (y & B & E). destruct (at_unique es k i x k' i' y (proj2 W) A B (eq_sym E)) as (-> & ->). reflexivity.
  - exfalso. apply (H k i x A eq_refl).
Qed.

(** ** the elements made from a catalogue *)
Lemma new_param_ok l vem vab : l <> [] -> exists e, new_param l vem vab = Ok e /\ t_lines e = l /\ elt_ok e /\ t_vem e = vem /\ t_vab e = vab /\
  (forall x t, l = x :: t -> t_em e = same_type (l_type x) Emission) /\ (forall a, In a (t_amp e) -> a = None).
Proof.
  intro N. destruct l as [|x t]; [contradiction|]. eexists. split; [reflexivity|]. cbn [t_lines t_em t_vem t_vab t_amp]. repeat (split; [solve [reflexivity|unfold elt_ok; cbn [t_lines t_ids t_amp t_std t_off t_asym]; rewrite !map_length; auto]|]).
  split; [unfold elt_ok; cbn [t_lines t_ids t_amp t_std t_off t_asym]; rewrite !map_length; repeat split; discriminate|].
  split; [reflexivity|]. split; [reflexivity|]. split; [intros y u E; injection E as <- <-; reflexivity|]. intros a I. apply in_map_iff in I. destruct I as (y & E & _). auto.
Qed.
Lemma new_params_ok vem vab ls : (forall l, In l ls -> l <> []) -> exists es, new_params vem vab ls = Ok es /\ map t_lines es = ls /\ Forall elt_ok es /\
  Forall (fun e => t_vem e = vem /\ t_vab e = vab /\ (forall x t, t_lines e = x :: t -> t_em e = same_type (l_type x) Emission) /\ forall a, In a (t_amp e) -> a = None) es.
Proof.
  induction ls as [|l t IH]; intro H; [exists []; repeat split; constructor|]. destruct (new_param_ok l vem vab (H l (or_introl eq_refl))) as (e & E & A & B & C & D & F & G).
  destruct IH as (es & E' & A' & B' & C'); [intros; apply H; right; assumption|]. exists (e :: es). cbn [new_params]. rewrite E, E'. cbn [rbind map]. rewrite A, A'. repeat split; constructor; auto.
  rewrite A. auto.
Qed.
Lemma push_group_perm g x m : Permutation (concat (map snd (push_group g x m))) (x :: concat (map snd m)).
Proof.
  induction m as [|[k l] t IH]; [apply Permutation_refl|]. cbn [push_group]. destruct (String.eqb g k); [|destruct (String.ltb g k)]; cbn [map concat snd].
  - rewrite <- app_assoc. apply Permutation_sym, Permutation_middle.
  - cbn [app]. apply Permutation_refl.
  - apply (Permutation_trans (Permutation_app_head l IH)). apply Permutation_sym, Permutation_middle.
Qed.
Lemma groups_perm cat : forall m, Permutation (concat (map snd (groups cat m))) (concat (map snd m) ++ cat).
Proof.
  induction cat as [|x t IH]; intro m; [rewrite app_nil_r; apply Permutation_refl|]. cbn [groups]. apply (Permutation_trans (IH _)).
  apply (Permutation_trans (Permutation_app_tail t (push_group_perm _ x m))). cbn [app]. apply Permutation_middle.
Qed.
Lemma push_group_ne g x m : (forall k l, In (k, l) m -> l <> []) -> forall k l, In (k, l) (push_group g x m) -> l <> [].
Proof.
  induction m as [|[k0 l0] t IH]; intros H k l I; [destruct I as [E|[]]; injection E as <- <-; discriminate|]. cbn [push_group] in I. destruct (String.eqb g k0); [|destruct (String.ltb g k0)].
  - destruct I as [E|I]; [injection E as <- <-; destruct l0; discriminate|apply (H k l); right; exact I].
  - destruct I as [E|I]; [injection E as <- <-; discriminate|apply (H k l I)].
  - destruct I as [E|I]; [injection E as <- <-; apply (H k0 l0); left; reflexivity|]. apply (IH (fun k l J => H k l (or_intror J)) k l I).
Qed.
Lemma groups_ne cat : forall m, (forall k l, In (k, l) m -> l <> []) -> forall k l, In (k, l) (groups cat m) -> l <> [].
Proof. induction cat as [|x t IH]; intros m H k l I; [apply (H k l I)|]. cbn [groups] in I. apply (IH _ (push_group_ne _ x m H) k l I). Qed.
Lemma type_split cat : Permutation (filter (fun x => same_type (l_type x) Absorption) cat ++ filter (fun x => same_type (l_type x) Emission) cat) cat.
Proof.
  induction cat as [|x t IH]; [constructor|]. cbn [filter]. destruct (l_type x); cbn [same_type].
  - apply Permutation_sym, Permutation_cons_app, Permutation_sym, IH.
  - cbn [app]. apply perm_skip, IH.
Qed.
Lemma partition_perm c cat : Permutation (concat (partition_lines c cat)) cat /\ forall l, In l (partition_lines c cat) -> l <> [].
Proof.
  destruct c; cbn [partition_lines].
  - split; [apply (Permutation_trans (groups_perm cat [])); apply Permutation_refl|]. intros l I. apply in_map_iff in I. destruct I as ([k l'] & <- & I). apply (groups_ne cat [] (fun _ _ J => match J with end) k l' I).
  - split.
    + apply (Permutation_trans (l' := filter (fun x => same_type (l_type x) Absorption) cat ++ filter (fun x => same_type (l_type x) Emission) cat)); [|apply type_split].
      destruct (filter (fun x => same_type (l_type x) Absorption) cat), (filter (fun x => same_type (l_type x) Emission) cat); cbn; rewrite ?app_nil_r; apply Permutation_refl.
    + intros l I. apply filter_In in I. destruct I as (_ & T). intros ->. discriminate.
  - split; [|intros l I; apply in_map_iff in I; destruct I as (x & <- & _); discriminate]. induction cat as [|x t IH]; [constructor|]. cbn. constructor. exact IH.
Qed.
Lemma load_spec c cat vem vab : distinct_ids cat -> exists es, LoadCatalog c cat vem vab = Ok es /\ elts_ok es /\ Permutation (concat (map t_lines es)) cat /\ map t_lines es = partition_lines c cat /\
  Forall (fun e => t_vem e = vem /\ t_vab e = vab /\ (forall x t, t_lines e = x :: t -> t_em e = same_type (l_type x) Emission) /\ forall a, In a (t_amp e) -> a = None) es.
Proof.
  intro D. destruct (partition_perm c cat) as (P & N). destruct (new_params_ok vem vab _ N) as (es & E & A & B & C). exists es. unfold LoadCatalog. split; [exact E|]. rewrite A.
  split; [split; [exact B|]; rewrite A; unfold distinct_ids in *; apply (Permutation_NoDup (Permutation_sym (Permutation_map l_id P)) D)|]. auto.
Qed.
Lemma load_find c cat vem vab es : distinct_ids cat -> LoadCatalog c cat vem vab = Ok es ->
  (forall x, In x cat -> exists k i, findElementIndex es (l_id x) = Some (k, i) /\ at_line es k i x) /\ (forall id, ~ In id (map l_id cat) -> findElementIndex es id = None).
Proof.
  intros D E. destruct (load_spec c cat vem vab D) as (es' & E' & W & P & _). rewrite E in E'. injection E' as <-. split.
  - intros x I. assert (J : In x (concat (map t_lines es))) by (apply (Permutation_in _ (Permutation_sym P) I)). apply in_concat in J. destruct J as (l & Il & Ix).
    apply in_map_iff in Il. destruct Il as (e & <- & Ie). apply In_nth_error in Ie. destruct Ie as (k & Nk). apply In_nth_error in Ix. destruct Ix as (i & Ni).
    assert (A : at_line es k i x) by (exists e; auto). exists k, i. split; [apply (find_at es k i x W A)|exact A].
  - intros id N. pose proof (find_spec es id W) as H. destruct (findElementIndex es id) as [[k i]|]; [|reflexivity]. exfalso. destruct H as (x & A & Ex). apply N. rewrite <- Ex. apply in_map.
    apply (Permutation_in _ P). apply (at_in es k i x A).
Qed.
(** by composition *)
Lemma one_line_spec cat : partition_lines OneLine cat = map (fun x => [x]) cat.
Proof. reflexivity. Qed.
Lemma two_spec cat : exists a e, Forall (fun x => l_type x = Absorption) a /\ Forall (fun x => l_type x = Emission) e /\ (forall l, In l (partition_lines EmissionAbsorption cat) <-> (l = a \/ l = e) /\ l <> []) /\
  (forall k k' l l', (k < k')%nat -> nth_error (partition_lines EmissionAbsorption cat) k = Some l -> nth_error (partition_lines EmissionAbsorption cat) k' = Some l' -> l = a /\ l' = e).
Proof.
  exists (filter (fun x => same_type (l_type x) Absorption) cat), (filter (fun x => same_type (l_type x) Emission) cat).
  split; [apply Forall_forall; intros x I; apply filter_In in I; destruct I as (_ & T); destruct (l_type x); [discriminate|reflexivity]|].
  split; [apply Forall_forall; intros x I; apply filter_In in I; destruct I as (_ & T); destruct (l_type x); [reflexivity|discriminate]|].
  cbn [partition_lines]. set (a := filter _ cat). set (b := filter (fun x => same_type (l_type x) Emission) cat). split.
  - intro l. rewrite filter_In. cbn [In]. split.
    + intros (I & T). split; [intuition congruence|]. intros ->. discriminate.
    + intros (I & T). split; [intuition congruence|]. destruct l; [contradiction|reflexivity].
  - intros k k' l l' L N N'. destruct a as [|x a], b as [|y b]; cbn [filter List.length Nat.eqb negb] in N, N'; destruct k as [|[|k]], k' as [|[|k']]; cbn in N, N'; try lia; try discriminate; try (destruct k; discriminate); try (destruct k'; discriminate).
    injection N as <-. injection N' as <-. auto.
Qed.
(** the groups *)
Lemma push_group_in g x m k l : In (k, l) (push_group g x m) -> In (k, l) m \/ (k = g /\ (l = [x] \/ exists l0, In (g, l0) m /\ l = l0 ++ [x])).
Proof.
  induction m as [|[k0 l0] t IH]; intro I; [destruct I as [E|[]]; injection E as <- <-; auto|]. cbn [push_group] in I. destruct (String.eqb_spec g k0) as [->|N]; [|destruct (String.ltb g k0)].
  - destruct I as [E|I]; [injection E as <- <-; right; split; [reflexivity|right; exists l0; split; [left|]; reflexivity]|left; right; exact I].
  - destruct I as [E|I]; [injection E as <- <-; auto|left; exact I].
  - destruct I as [E|I]; [left; left; exact E|]. destruct (IH I) as [J|(-> & [J|(l1 & J & E)])]; [left; right; exact J|auto|]. right. split; [reflexivity|]. right. exists l1. split; [right; exact J|exact E].
Qed.
Definition by_name (m : list (string * list line)) : Prop := ordered m /\ forall k l, In (k, l) m -> Forall (fun y => group_name y = k) l.
Lemma push_group_by_name x m : by_name m -> by_name (push_group (group_name x) x m).
Proof.
  intros (O & F). split.
  - clear F. set (g := group_name x). clearbody g. induction m as [|[k0 l0] t IH]; [apply ordered_cons; split; [constructor|intros ? ? []]|].
    pose proof O as O'. apply ordered_cons in O'. destruct O' as (Ot & H). cbn [push_group]. destruct (String.eqb_spec g k0) as [->|N]; [apply ordered_cons; auto|]. destruct (String.ltb g k0) eqn:L.
    + apply ordered_cons. split; [exact O|]. intros k' v' [E|I]; [injection E as <- <-; exact L|exact (ltb_trans _ _ _ L (H _ _ I))].
    + apply ordered_cons. split; [auto|]. intros k' v' I. apply push_group_in in I. destruct I as [I|(-> & _)]; [exact (H _ _ I)|apply ltb_total; auto].
  - intros k l I. apply push_group_in in I. destruct I as [I|(-> & [->|(l0 & I & ->)])]; [apply (F k l I)|constructor; [reflexivity|constructor]|].
    apply Forall_app. split; [apply (F _ _ I)|constructor; [reflexivity|constructor]].
Qed.
Lemma groups_by_name cat : forall m, by_name m -> by_name (groups cat m).
Proof. induction cat as [|x t IH]; intros m B; [exact B|]. cbn [groups]. apply IH, push_group_by_name, B. Qed.
Lemma groups_spec cat l : In l (partition_lines Default cat) -> exists g, Forall (fun x => group_name x = g) l /\ forall x, In x cat -> group_name x = g -> In x l.
Proof.
  cbn [partition_lines]. intro I. apply in_map_iff in I. destruct I as ([g l'] & E & I). cbn in E. subst l'.
  assert (B : by_name (groups cat [])) by (apply groups_by_name; split; [constructor|intros ? ? []]). destruct B as (O & F). exists g. split; [apply (F g l I)|].
  intros x Ix Eg. assert (J : In x (concat (map snd (groups cat [])))) by (apply (Permutation_in _ (Permutation_sym (groups_perm cat [])) Ix)). apply in_concat in J. destruct J as (l2 & Il & Ixl).
  apply in_map_iff in Il. destruct Il as ([g2 l3] & E2 & I2). cbn in E2. subst l3. pose proof (F g2 l2 I2) as F2. rewrite Forall_forall in F2. specialize (F2 x Ixl). rewrite Eg in F2. subst g2.
  enough (l2 = l) by (subst; exact Ixl). clear -O I I2. revert I I2. induction (groups cat []) as [|[k0 l0] t IH]; [intros []|]. apply ordered_cons in O. destruct O as (Ot & H). intros [E|I] [E2|I2].
  - congruence.
  - injection E as -> ->. specialize (H _ _ I2). rewrite ltb_irrefl in H. discriminate.
  - injection E2 as -> ->. specialize (H _ _ I). rewrite ltb_irrefl in H. discriminate.
  - apply IH; auto.
Qed.
