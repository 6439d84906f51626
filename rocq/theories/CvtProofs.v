(** Renaming (C97). *)
From Coq Require Import String Ascii.
From Verif Require Import Base RdrModel RdrProofs CvtModel CvtSpec.
Open Scope string_scope.

(** *** the table *)
Lemma rename_fix l n : (forall r, In r l -> fst r = n -> snd r = n) -> rename_with l n = n.
Proof.
  induction l as [|(a, b) l IH]; intro H; [reflexivity|]. unfold rename_with in *. cbn. destruct (String.eqb_spec n a) as [E|E].
  - assert (B : b = n) by (apply (H (a, b)); [left; reflexivity|symmetry; exact E]). rewrite B. apply IH. intros r I. apply H. right. exact I.
  - apply IH. intros r I. apply H. right. exact I.
Qed.
Lemma rename_row l s n : (forall r, In r l -> fst r = s -> snd r = n) -> (forall r, In r l -> fst r = n -> snd r = n) -> In s (map fst l) -> rename_with l s = n.
Proof.
  induction l as [|(a, b) l IH]; intros H1 H2 I; [contradiction|]. unfold rename_with in *. cbn. destruct (String.eqb_spec s a) as [E|E].
  - assert (B : b = n) by (apply (H1 (a, b)); [left; reflexivity|symmetry; exact E]). rewrite B. apply (rename_fix l n). intros r R. apply H2. right. exact R.
  - apply IH; [intros r R; apply H1; right; exact R|intros r R; apply H2; right; exact R|]. destruct I as [I|I]; [exfalso; apply E; symmetry; exact I|exact I].
Qed.
Lemma rename_other l s : ~ In s (map fst l) -> rename_with l s = s.
Proof.
  intro H. apply rename_fix. intros r I E. exfalso. apply H. rewrite <- E. apply in_map, I.
Qed.
(** a name is renamed in one way, a new name is not renamed, two names are not merged *)
Definition table_check (t : list (string * string)) : bool :=
  forallb (fun r => forallb (fun r' => (if fst r =? fst r' then snd r =? snd r' else true) &&
                                       (if fst r' =? snd r then snd r' =? snd r else true) &&
                                       (if snd r =? snd r' then (fst r =? fst r') || (fst r =? snd r) || (fst r' =? snd r') else true)) t) t.
Lemma table_checked : table_check renaming = true.
Proof. vm_compute. reflexivity. Qed.
Lemma table_spec r r' : In r renaming -> In r' renaming ->
  (fst r = fst r' -> snd r = snd r') /\ (fst r' = snd r -> snd r' = snd r) /\ (snd r = snd r' -> fst r = fst r' \/ fst r = snd r \/ fst r' = snd r').
Proof.
  intros I I'. pose proof table_checked as T. unfold table_check in T. rewrite forallb_forall in T. specialize (T r I). cbv beta in T. rewrite forallb_forall in T.
  specialize (T r' I'). cbv beta in T. clear I I'. destruct r as (a, b), r' as (a', b'). cbn [fst snd] in *.
  apply andb_true_iff in T. destruct T as (T & T3). apply andb_true_iff in T. destruct T as (T1 & T2). repeat apply conj; intro E.
  - subst a'. rewrite String.eqb_refl in T1. apply String.eqb_eq, T1.
  - subst a'. rewrite String.eqb_refl in T2. apply String.eqb_eq, T2.
  - subst b'. rewrite String.eqb_refl in T3. apply orb_true_iff in T3. destruct T3 as [T3|T3]; [apply orb_true_iff in T3; destruct T3 as [T3|T3]|]; apply String.eqb_eq in T3; auto.
Qed.
Theorem renamed_row o n : In (o, n) renaming -> rename_str o = n.
Proof.
  intro I. apply rename_row.
  - intros r R E. destruct (table_spec r (o, n) R I) as (H & _). apply H. exact E.
  - intros r R E. destruct (table_spec (o, n) r I R) as (_ & H & _). apply H. exact E.
  - apply in_map_iff. exists (o, n). split; [reflexivity|exact I].
Qed.
Theorem renamed_new o n : In (o, n) renaming -> rename_str n = n.
Proof. intro I. apply rename_fix. intros r R E. destruct (table_spec (o, n) r I R) as (_ & H & _). apply H. exact E. Qed.
Theorem renamed_other s : ~ In s (map fst renaming) -> rename_str s = s.
Proof. apply rename_other. Qed.
Theorem renamed_distinct s t : rename_str s = rename_str t -> s = t \/ In s (map snd renaming) \/ In t (map snd renaming).
Proof.
  intro E. destruct (in_dec string_dec s (map fst renaming)) as [I|I]; destruct (in_dec string_dec t (map fst renaming)) as [J|J].
  - apply in_map_iff in I, J. destruct I as ((o, n) & <- & I), J as ((o', n') & <- & J). cbn [fst] in *. rewrite (renamed_row _ _ I), (renamed_row _ _ J) in E. subst n'.
    destruct (table_spec _ _ I J) as (_ & _ & H). destruct (H eq_refl) as [H'|[H'|H']]; cbn [fst snd] in H'; [left; exact H'|right; left|right; right]; subst;
      apply in_map_iff; eexists; (split; [|eassumption]); reflexivity.
  - apply in_map_iff in I. destruct I as ((o, n) & <- & I). cbn [fst] in *. rewrite (renamed_row _ _ I), (renamed_other _ J) in E. subst t.
    right. right. apply in_map_iff. exists (o, n). auto.
  - apply in_map_iff in J. destruct J as ((o, n) & <- & J). cbn [fst] in *. rewrite (renamed_row _ _ J), (renamed_other _ I) in E. subst s.
    right. left. apply in_map_iff. exists (o, n). auto.
  - rewrite (renamed_other _ I), (renamed_other _ J) in E. left. exact E.
Qed.

(** *** trees *)
Lemma put_new {A} k (v : A) d : ~ In k (dkeys d) -> dput k v d = (d ++ [(k, v)])%list.
Proof.
  induction d as [|(k', w) d IH]; intro N; [reflexivity|]. cbn in *. destruct (String.eqb_spec k k') as [E|E]; [exfalso; apply N; left; congruence|].
  f_equal. apply IH. intro I. apply N. right. exact I.
Qed.
Lemma to_dict_nodup {A} (l : list (string * A)) : NoDup (map fst l) -> to_dict l = l.
Proof.
  unfold to_dict. change l with ([] ++ l)%list at 1 3. generalize (@nil (string * A)) as acc. induction l as [|(k, v) l IH]; intros acc N; cbn [fold_left].
  - rewrite app_nil_r. reflexivity.
  - rewrite put_new.
    + replace (acc ++ (k, v) :: l)%list with ((acc ++ [(k, v)]) ++ l)%list by (rewrite <- app_assoc; reflexivity). apply IH.
      rewrite <- app_assoc. exact N.
    + rewrite map_app in N. cbn in N. apply NoDup_remove_2 in N. intro I. apply N. apply in_or_app. left. exact I.
Qed.
Lemma rename_obj f d : rename f (JObj d) = JObj (to_dict (rename_entries f d)).
Proof.
  cbn. f_equal. f_equal. unfold rename_entries. induction d as [|(k, v) d IH]; [reflexivity|]. cbn. f_equal. exact IH.
Qed.
Fixpoint jsize (j : json) : nat :=
  match j with
  | JArr l => S (list_sum (map jsize l))
  | JObj d => S ((fix go (d : list (string * json)) := match d with [] => O | (_, v) :: t => (jsize v + go t)%nat end) d)
  | _ => 1%nat
  end.
Lemma arr_size l j : In j l -> (jsize j < jsize (JArr l))%nat.
Proof.
  intro I. change (jsize (JArr l)) with (S (list_sum (map jsize l))). unfold list_sum. induction l as [|x l IH]; [contradiction|]. cbn [map fold_right].
  destruct I as [E|I]; [rewrite E; lia|]. specialize (IH I). lia.
Qed.
Lemma obj_size d k j : In (k, j) d -> (jsize j < jsize (JObj d))%nat.
Proof.
  intro I. cbn. induction d as [|(k', x) d IH]; [contradiction|]. destruct I as [I|I]; [injection I as -> ->; lia|]. specialize (IH I). lia.
Qed.
Theorem rename_tree f : forall j, distinct f j -> renamed f j (rename f j).
Proof.
  intro j. remember (jsize j) as n eqn:E. assert (H : (jsize j <= n)%nat) by lia. clear E. revert j H.
  induction n as [|n IH]; intros j H D; [destruct j; cbn in H; lia|]. destruct D as [|b|q|s|l D|d N D]; try solve [cbn; constructor].
  - cbn [rename]. constructor. assert (G : forall x, In x l -> renamed f x (rename f x)) by (intros x X; apply IH; [assert (A := arr_size l x X); lia|apply D, X]).
    clear -G. induction l as [|x l IHl]; cbn; constructor; [apply G; left; reflexivity|]. apply IHl. intros y Y. apply G. right. exact Y.
  - rewrite rename_obj. constructor. rewrite to_dict_nodup by (unfold rename_entries; rewrite map_map; exact N). unfold rename_entries.
    assert (G : forall k x, In (k, x) d -> renamed f x (rename f x)) by (intros k x X; apply IH; [assert (A := obj_size d k x X); lia|apply (D k x X)]).
    clear -G. induction d as [|(k, x) d IHd]; cbn; constructor; [split; [reflexivity|apply (G k); left; reflexivity]|]. apply IHd. intros k' y Y. apply (G k'). right. exact Y.
Qed.
