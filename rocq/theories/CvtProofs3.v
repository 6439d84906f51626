(** Version 2 (C97). *)
From Coq Require Import String Ascii.
From Verif Require Import Base RdrModel RdrProofs CvtModel CvtSpec CvtProofs CvtProofs2.
Open Scope string_scope.

(** *** what the tree contains *)
Lemma rename_key_from p k x v : dget x (rename_key p k) = Some v -> dget x p = Some v \/ (contains mark k = true /\ dget k p = Some v).
Proof.
  unfold rename_key. destruct (contains mark k) eqn:C; [|auto]. destruct (dget k p) as [w|] eqn:G; [|auto]. rewrite dget_put, dget_remove.
  destruct (x =? new_key k); [auto|]. destruct (x =? k); [discriminate|auto].
Qed.
Theorem v2_from raw x v : dget x (convert_v2 raw) = Some v -> exists k, In (k, v) raw /\ (k = x \/ contains mark k = true).
Proof.
  unfold convert_v2. generalize (dkeys raw) as ks.
  assert (G : forall ks p, (forall x v, dget x p = Some v -> exists k, In (k, v) raw /\ (k = x \/ contains mark k = true)) ->
    forall x v, dget x (fold_left rename_key ks p) = Some v -> exists k, In (k, v) raw /\ (k = x \/ contains mark k = true)).
  { induction ks as [|k ks IH]; intros p H y w; [apply H|]. cbn [fold_left]. apply IH. clear y w. intros y w E.
    destruct (rename_key_from _ _ _ _ E) as [E'|(C & E')]; [apply H, E'|]. destruct (H _ _ E') as (k0 & I & [J|J]); exists k0; (split; [exact I|]); right; [subst; exact C|exact J]. }
  intro ks. apply G. clear. intros x v E. exists x. split; [apply dget_in, E|left; reflexivity].
Qed.
Lemma general_plain k : In k general_v2 -> contains mark k = false.
Proof. assert (A : forallb (fun k => negb (contains mark k)) general_v2 = true) by (vm_compute; reflexivity). rewrite forallb_forall in A. intro I. specialize (A k I). destruct (contains mark k); [discriminate|reflexivity]. Qed.
(** a section of a name which is not one of the general parameters satisfies the schema of the sections *)
Lemma section_ok raw m j : accepted_v2 raw -> ~ In m general_v2 -> dget m (convert_v2 raw) = Some j -> spectrum_model_ok_v2 j.
Proof.
  intros (N & K & A & L) M E. destruct (v2_from _ _ _ E) as (k & I & J). assert (D : In k (dkeys raw)) by (apply in_map_iff; exists (k, j); auto).
  apply (A k j I). destruct (K k D) as [G|G]; [|exact G]. exfalso. destruct J as [J|J]; [subst; contradiction|]. rewrite (general_plain k G) in J. discriminate.
Qed.
Lemma only_none names k j : only names j -> ~ In k names -> field k j = None.
Proof.
  intros O N. destruct j as [| | | | |d]; try reflexivity. cbn in *. destruct (dget k d) as [v|] eqn:E; [|reflexivity]. exfalso. apply N, O, dget_key. exists v. exact E.
Qed.
Theorem v2_linemeas raw m : accepted_v2 raw -> ~ In m general_v2 ->
  get_linemeas_method (convert_v2 raw) m = None /\ get_linemeas_dzhalf (convert_v2 raw) m = None /\ get_linemeas_redshiftstep (convert_v2 raw) m = None.
Proof.
  intros A M. unfold get_linemeas_method, get_linemeas_dzhalf, get_linemeas_redshiftstep. destruct (dget m (convert_v2 raw)) as [j|] eqn:E.
  - destruct (section_ok _ _ _ A M E) as (O & S). cbn [on_none]. repeat apply conj.
    + destruct (existsb _ _); [|reflexivity]. destruct (field "lineMeasSolver" j) as [s|] eqn:F; [|reflexivity]. cbn [on_none]. apply (only_none linemeas_solver_v2); [apply S; reflexivity|cbn; intuition discriminate].
    + apply (only_none spectrum_model_v2); [exact O|cbn; intuition discriminate].
    + apply (only_none spectrum_model_v2); [exact O|cbn; intuition discriminate].
  - cbn [on_none]. destruct (existsb _ _); repeat split; reflexivity.
Qed.
Theorem v2_lsf raw : accepted_v2 raw -> get_lsf_width_file_name (convert_v2 raw) = None.
Proof.
  intros (N & K & A & L). unfold get_lsf_width_file_name. destruct (dget "lsf" (convert_v2 raw)) as [j|] eqn:E; [|reflexivity]. cbn [on_none].
  destruct (v2_from _ _ _ E) as (k & I & [J|J]).
  - subst k. apply (only_none lsf_v2); [apply L, I|cbn; intuition discriminate].
  - assert (D : In k (dkeys raw)) by (apply in_map_iff; exists (k, j); auto). destruct (K k D) as [G|G]; [rewrite (general_plain k G) in J; discriminate|].
    destruct (A k j I G) as (O & _). apply (only_none spectrum_model_v2); [exact O|cbn; intuition discriminate].
Qed.

(** *** without collision nothing is lost *)
Section Keep.
Variable raw : dict json.
Hypothesis N : NoDup (dkeys raw).
Hypothesis F : NoDup (map final (dkeys raw)).
Hypothesis P : forall k, In k (dkeys raw) -> contains mark (final k) = false.
Lemma final_inj a b : In a (dkeys raw) -> In b (dkeys raw) -> final a = final b -> a = b.
Proof.
  clear N P. revert F. generalize (dkeys raw) as l. intro l. induction l as [|x l IH]; intros D A B E; [contradiction|]. cbn in D. inversion D as [|? ? D1 D2].
  destruct A as [A|A], B as [B|B].
  - congruence.
  - exfalso. apply D1. subst x. rewrite E. apply in_map, B.
  - exfalso. apply D1. subst x. rewrite <- E. apply in_map, A.
  - apply (IH D2 A B E).
Qed.
Lemma keep_aux todo : forall done p, dkeys raw = (done ++ todo)%list ->
  (forall k v, In (k, v) raw -> (In k done -> dget (final k) p = Some v) /\ (In k todo -> dget k p = Some v)) ->
  (forall x v, dget x p = Some v -> exists k, In (k, v) raw /\ ((In k done /\ x = final k) \/ (In k todo /\ x = k))) ->
  (forall k v, In (k, v) raw -> dget (final k) (fold_left rename_key todo p) = Some v) /\
  (forall x v, dget x (fold_left rename_key todo p) = Some v -> exists k, In (k, v) raw /\ x = final k).
Proof.
  induction todo as [|k todo IH]; intros done p D A B.
  - rewrite app_nil_r in D. split.
    + intros k v I. apply (A k v I). rewrite <- D. apply in_map_iff. exists (k, v). auto.
    + intros x v E. destruct (B x v E) as (k & I & [(_ & J)|([] & _)]). exists k. auto.
  - cbn [fold_left]. assert (Ik : In k (dkeys raw)) by (rewrite D; apply in_or_app; right; left; reflexivity).
    assert (ND : NoDup (done ++ k :: todo)) by (rewrite <- D; exact N).
    assert (Nt : ~ In k done /\ ~ In k todo) by (apply NoDup_remove_2 in ND; split; intro J; apply ND, in_or_app; auto).
    assert (Dt : forall a, In a done -> In a (dkeys raw)) by (intros a J; rewrite D; apply in_or_app; left; exact J).
    assert (Tt : forall a, In a todo -> In a (dkeys raw)) by (intros a J; rewrite D; apply in_or_app; right; right; exact J).
    apply dget_key in Ik as Gk. destruct Gk as (vk & Gk). apply dget_in in Gk. destruct (A k vk Gk) as (_ & Ek). specialize (Ek (or_introl eq_refl)).
    assert (Uk : forall v, In (k, v) raw -> v = vk) by (intros v J; apply (in_dget _ _ _ N) in J; apply (in_dget _ _ _ N) in Gk; congruence).
    apply (IH (done ++ [k])%list).
    + rewrite <- app_assoc. exact D.
    + intros a v J. unfold rename_key. destruct (contains mark k) eqn:C.
      * rewrite Ek. assert (Fk : final k = new_key k) by (unfold final; rewrite C; reflexivity). split; intro L.
        -- apply in_app_or in L. destruct L as [L|[L|[]]].
           ++ rewrite dget_put, dget_remove. destruct (String.eqb_spec (final a) (new_key k)) as [E|E].
              ** exfalso. assert (X : a = k) by (apply final_inj; [apply Dt, L|exact Ik|congruence]). subst a. apply (proj1 Nt), L.
              ** destruct (String.eqb_spec (final a) k) as [G|G]; [|apply (A a v J), L]. exfalso. assert (X := P a (Dt a L)). rewrite G in X. congruence.
           ++ subst a. rewrite dget_put, Fk, String.eqb_refl. f_equal. symmetry. apply Uk, J.
        -- rewrite dget_put, dget_remove. destruct (String.eqb_spec a (new_key k)) as [E|E].
           ++ exfalso. assert (Y : contains mark a = false) by (rewrite E, <- Fk; apply P, Ik). assert (X : a = k).
              { apply final_inj; [apply Tt, L|exact Ik|]. unfold final at 1. rewrite Y. rewrite Fk. exact E. } rewrite X in L. apply (proj2 Nt), L.
           ++ destruct (String.eqb_spec a k) as [G|G]; [exfalso; subst a; apply (proj2 Nt), L|]. apply (A a v J). right. exact L.
      * split; intro L; [|apply (A a v J); right; exact L]. apply in_app_or in L. destruct L as [L|[L|[]]]; [apply (A a v J), L|]. subst a. unfold final. rewrite C, Ek. f_equal. symmetry. apply Uk, J.
    + intros x v E. unfold rename_key in E. destruct (contains mark k) eqn:C.
      * rewrite Ek in E. rewrite dget_put, dget_remove in E. destruct (String.eqb_spec x (new_key k)) as [G|G].
        -- exists k. injection E as E. subst v. split; [exact Gk|]. left. split; [apply in_or_app; right; left; reflexivity|]. unfold final. rewrite C. exact G.
        -- destruct (String.eqb_spec x k) as [Y|Y]; [discriminate|]. destruct (B x v E) as (a & J & [(L & Z)|([L|L] & Z)]); exists a; (split; [exact J|]).
           ++ left. split; [apply in_or_app; left; exact L|exact Z].
           ++ exfalso. apply Y. congruence.
           ++ right. auto.
      * destruct (B x v E) as (a & J & [(L & Z)|([L|L] & Z)]); exists a; (split; [exact J|]).
        -- left. split; [apply in_or_app; left; exact L|exact Z].
        -- left. subst a. split; [apply in_or_app; right; left; reflexivity|]. unfold final. rewrite C. exact Z.
        -- right. auto.
Qed.
End Keep.
Theorem v2_keeps raw : NoDup (dkeys raw) -> no_collision raw -> forall x v, dget x (convert_v2 raw) = Some v <-> exists k, In (k, v) raw /\ x = final k.
Proof.
  intros N (F & P). destruct (keep_aux raw N F P (dkeys raw) [] raw eq_refl) as (A & B).
  - intros k v I. split; [intros []|]. intros _. apply (in_dget _ _ _ N I).
  - intros x v E. exists x. split; [apply dget_in, E|]. right. split; [|reflexivity]. apply dget_key. exists v. exact E.
  - intros x v. split; [apply B|]. intros (k & I & E). subst x. apply A, I.
Qed.
Lemma erase_none p m : contains p m = false -> erase p m 0 = m.
Proof.
  induction m as [|c m IH]; intro H; [reflexivity|]. cbn [contains] in H. apply orb_false_iff in H. destruct H as (H1 & H2).
  cbn [erase]. rewrite H1. f_equal. apply IH, H2.
Qed.
Theorem name_of_section m : contains mark m = false -> new_key (mark ++ m) = m.
Proof.
  intro H. unfold new_key. change (mark ++ m) with (String "s" ("pectrumModel_" ++ m)). 
  assert (E : prefix mark (String "s" ("pectrumModel_" ++ m)) = true) by (destruct m; reflexivity).
  cbn [erase]. rewrite E. cbn. apply erase_none, H.
Qed.

(** *** the other rules of version 2 *)
Theorem v2_priors j : only priors_v2 j -> field "catalogDirPath" j = None.
Proof. intro O. apply (only_none priors_v2); [exact O|cbn; intuition discriminate]. Qed.
Theorem v2_asym : ~ exists j, requires asym_required_v2 j /\ only asym_v2 j.
Proof.
  intros (j & R & O). destruct j as [| | | | |d]; try contradiction. cbn [requires only] in R, O.
  specialize (O _ (R "switchFixedToFit" ltac:(cbn; auto))). cbn in O. intuition discriminate.
Qed.
(** *** the names of version 1 *)
Definition read_from (read names : list string) : bool := forallb (fun n => existsb (fun s => rename_str s =? n) names) read.
Lemma read_from_spec read names : read_from read names = true -> forall n, In n read -> exists s, In s names /\ rename_str s = n.
Proof.
  unfold read_from. rewrite forallb_forall. intros H n I. specialize (H n I). apply existsb_exists in H. destruct H as (s & J & E). exists s. split; [exact J|]. apply String.eqb_eq, E.
Qed.
Theorem v1_names : (forall n, In n ["lineMeasDzHalf"; "lineMeasRedshiftStep"; "redshiftRange"; "redshiftStep"; "redshiftSampling"; "templateDir"; "method"; "linemeas_method"; "lineMeasSolve"; "enable_reliability"; "reliabilityModel"; "lineModelSolve"; "templateFittingSolve"; "tplCombinationSolve"] ->
    exists s, In s objects_v1 /\ rename_str s = n) /\
  (exists s, In s lsf_v1 /\ rename_str s = "gaussianVariableWidthFileName") /\ (exists s, In s priors_v1 /\ rename_str s = "catalogDirPath").
Proof.
  split; [apply read_from_spec; vm_compute; reflexivity|]. split.
  - apply (read_from_spec ["gaussianVariableWidthFileName"]); [vm_compute; reflexivity|left; reflexivity].
  - apply (read_from_spec ["catalogDirPath"]); [vm_compute; reflexivity|left; reflexivity].
Qed.
