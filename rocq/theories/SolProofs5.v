(** C91: the profiles after a load, and the solution read again. *)
From Coq Require Import String Sorting.Permutation.
From Verif Require Import Base RangeModel RangeProofs F64 AxisProofs RulesModel LyaModel SolModel SolSpec SolProofs SolProofs2 SolProofs3 SolProofs4.
Open Scope Q_scope.

Definition keep (e e' : elt) : Prop := t_lines e' = t_lines e /\ t_ids e' = t_ids e /\ t_asym e' = t_asym e /\
  List.length (t_amp e') = List.length (t_amp e) /\ List.length (t_std e') = List.length (t_std e) /\ List.length (t_off e') = List.length (t_off e).
Lemma keep_refl e : keep e e. Proof. repeat split. Qed.
Lemma keep_trans a b c : keep a b -> keep b c -> keep a c.
Proof. intros (A1 & A2 & A3 & A4 & A5 & A6) (B1 & B2 & B3 & B4 & B5 & B6). unfold keep. repeat split; congruence. Qed.
Lemma rbind_inv {A B} (x : res A) (f : A -> res B) y : rbind x f = Ok y -> exists a, x = Ok a /\ f a = Ok y.
Proof. destruct x; cbn; intro H; try discriminate. eauto. Qed.
Lemma set_line_keep e i a b c e' : set_line e i a b c = Ok e' -> keep e e'.
Proof.
  unfold set_line. intro H. apply rbind_inv in H. destruct H as (x & E1 & H). apply rbind_inv in H. destruct H as (y & E2 & H). apply rbind_inv in H. destruct H as (z & E3 & H). injection H as <-.
  destruct (vset_get _ _ _ _ E1) as (_ & L1 & _), (vset_get _ _ _ _ E2) as (_ & L2 & _), (vset_get _ _ _ _ E3) as (_ & L3 & _). repeat split; cbn; assumption.
Qed.
Lemma vset_keep es k e e' es' : nth_error es k = Some e -> keep e e' -> vset es k e' = Ok es' -> Forall2 keep es es'.
Proof.
  intros N K. revert k es' N. induction es as [|a t IH]; intros k es' N E; [destruct k; discriminate|]. destruct k as [|k]; cbn in N, E.
  - injection N as ->. injection E as <-. constructor; [exact K|]. clear. induction t; constructor; [apply keep_refl|assumption].
  - destruct (vset t k e') as [t'| |] eqn:V; try discriminate. injection E as <-. constructor; [apply keep_refl|apply (IH k t' N V)].
Qed.
Lemma F2_keep_refl es : Forall2 keep es es. Proof. induction es; constructor; [apply keep_refl|assumption]. Qed.
Lemma F2_keep_trans a b c : Forall2 keep a b -> Forall2 keep b c -> Forall2 keep a c.
Proof. intro F. revert c. induction F as [|x y a b H F IH]; intros c G; inversion G; subst; constructor; [eapply keep_trans; eassumption|apply IH; assumption]. Qed.
Lemma load_rows_keep offs rows : forall done es es', load_rows offs rows done es = Ok es' -> Forall2 keep es es'.
Proof.
  induction rows as [|r t IH]; intros done es es' E; [injection E as <-; apply F2_keep_refl|]. cbn [load_rows] in E. destruct (Z.eqb (r_elt r) (-1) || r_out r)%bool; [apply (IH _ _ _ E)|].
  apply rbind_inv in E. destruct E as (e & Ge & E). apply vget_Ok in Ge. destruct (getLineIndex e (r_id r)) as [i|]; [|apply (IH _ _ _ E)]. apply rbind_inv in E. destruct E as (e1 & E1 & E). apply set_line_keep in E1.
  apply rbind_inv in E. destruct E as (d & _ & E). destruct d.
  - apply rbind_inv in E. destruct E as (es1 & V & E). apply (F2_keep_trans es es1); [apply (vset_keep _ _ _ _ _ Ge E1 V)|apply (IH _ _ _ E)].
  - apply rbind_inv in E. destruct E as (es1 & V & E). apply rbind_inv in E. destruct E as (dn & _ & E). apply (F2_keep_trans es es1); [|apply (IH _ _ _ E)].
    apply (vset_keep _ _ _ (set_elt offs e1 r) _ Ge); [|exact V]. apply (keep_trans _ _ _ E1). repeat split.
Qed.
(** lines whose profile only is changed *)
Definition reprofile (f : profile -> profile) (x : line) : line := mkLine (l_id x) (l_name x) (l_type x) (l_group x) (l_strid x) (l_offset x) (f (l_profile x)).
Definition steady (f : profile -> profile) : Prop := forall p, (isAsym (f p) || isSymIgm (f p))%bool = (isAsym p || isSymIgm p)%bool.
Lemma ids_from_map f l : forall n m, ids_from n (map (reprofile f) l) m = ids_from n l m.
Proof. induction l as [|x t IH]; intros n m; [reflexivity|]. cbn. apply IH. Qed.
Lemma asym_from_map f l : steady f -> forall n, asym_from n (map (reprofile f) l) = asym_from n l.
Proof. intro St. induction l as [|x t IH]; intro n; [reflexivity|]. cbn [map asym_from reprofile l_profile]. rewrite (St (l_profile x)), IH. reflexivity. Qed.
Lemma map_profiles_ok f e : steady f -> elt_ok e -> elt_ok (map_profiles f e).
Proof.
  intros St (O1 & O2 & O3 & O4). unfold elt_ok. cbn [map_profiles t_lines t_ids t_asym t_amp t_std t_off]. fold (reprofile f). change (fun x : line => mkLine (l_id x) (l_name x) (l_type x) (l_group x) (l_strid x) (l_offset x) (f (l_profile x))) with (reprofile f).
  rewrite map_length, (ids_from_map f), (asym_from_map f _ St). split; [destruct (t_lines e); [contradiction|discriminate]|auto].
Qed.
Lemma asym_steady a : steady (asym_of a).
Proof. intro p. destruct a as [[[x|] [y|]] [z|]], p; reflexivity. Qed.
Lemma igm_steady i z : steady (fun p => SetSymIgmParams p i z).
Proof. intro p. destruct p; reflexivity. Qed.
Lemma reset_ok e : elt_ok e -> elt_ok (reset_elt e).
Proof. intros (O1 & O2 & O3 & _). unfold elt_ok. cbn [reset_elt t_lines t_ids t_asym t_amp t_std t_off]. rewrite !map_length. repeat (split; [solve [auto]|]). auto. Qed.
Lemma keep_ok e e' : keep e e' -> elt_ok e -> elt_ok e'.
Proof. intros (K1 & K2 & K3 & K4 & K5 & K6) (O1 & O2 & O3 & O4 & O5 & O6). unfold elt_ok. rewrite K1, K2, K3, K4, K5, K6. auto 8. Qed.
(** the element which is changed *)
Definition at_k (f : elt -> elt) (k : nat) (es : list elt) : list elt := (firstn k es ++ match skipn k es with [] => [] | e :: t => f e :: t end)%list.
Lemma at_k_nth f es : forall k j, nth_error (at_k f k es) j = if Nat.eqb j k then option_map f (nth_error es j) else nth_error es j.
Proof.
  unfold at_k. induction es as [|e t IH]; intros k j; [destruct k, j; cbn; try destruct (Nat.eqb j k); reflexivity|]. destruct k as [|k], j as [|j]; try reflexivity. cbn [firstn skipn app nth_error Nat.eqb]. apply IH.
Qed.
Lemma keep_tag tag es es' : Forall2 keep es es' -> forall k, find_tag k es tag = find_tag k es' tag.
Proof. induction 1 as [|e e' es es' (K & _) F IH]; intro k; [reflexivity|]. cbn [find_tag]. rewrite K, IH. reflexivity. Qed.
Lemma reset_tag tag es : forall k, find_tag k (map reset_elt es) tag = find_tag k es tag.
Proof. induction es as [|e t IH]; intro k; [reflexivity|]. cbn [map find_tag reset_elt t_lines]. rewrite IH. reflexivity. Qed.
Lemma load_profiles offs o s2 s' : LoadModelSolution offs o s2 = Ok s' -> Forall elt_ok (s_elts s2) -> Forall elt_ok (s_elts s') /\ List.length (s_elts s') = List.length (s_elts s2) /\
  forall k i y, at_line (s_elts s2) k i y -> exists y', at_line (s_elts s') k i y' /\ same_line y y' /\
    exists lya, l_profile y' = loaded_profile o lya (l_profile y) /\ (lya = true <-> exists e, lya_elt (s_elts s2) k e).
Proof.
  intros E Ok2. unfold LoadModelSolution in E. cbv zeta in E. apply rbind_inv in E. destruct E as (es & El & E). apply load_rows_keep in El. injection E as <-. cbn [s_elts].
  assert (Oe : Forall elt_ok es).
  { clear -El Ok2. revert es El. induction (s_elts s2) as [|e t IH]; intros es El; inversion El; subst; constructor; inversion Ok2; subst; [eapply keep_ok; [eassumption|apply reset_ok; assumption]|apply IH; assumption]. }
  assert (Tag : find_tag 0 es "LyAE" = find_tag 0 (s_elts s2) "LyAE") by (rewrite <- (keep_tag _ _ _ El), reset_tag; reflexivity).
  pose proof (find_tag_spec "LyAE" (s_elts s2) 0) as Ft.
  assert (Le : List.length es = List.length (s_elts s2)) by (rewrite <- (F2_length _ _ _ El), map_length; reflexivity).
  set (es1 := match o_lya o with (Some _, Some _, Some _) => match find_tag 0 es "LyAE" with Some k => (firstn k es ++ match skipn k es with [] => [] | e :: t => map_profiles (asym_of (o_lya o)) e :: t end)%list | None => es end | _ => es end).
  assert (H1 : exists kt, (forall k, (exists e, lya_elt (s_elts s2) k e) <-> kt = Some k) /\ forall j, nth_error es1 j =
     match o_lya o with (Some _, Some _, Some _) => if match kt with Some k => Nat.eqb j k | None => false end then option_map (map_profiles (asym_of (o_lya o))) (nth_error es j) else nth_error es j | _ => nth_error es j end).
  { exists (find_tag 0 (s_elts s2) "LyAE"). split.
    - intro k. destruct (find_tag 0 (s_elts s2) "LyAE") as [k0|].
      + destruct Ft as (_ & e & x & N & Ix & T & Hb). rewrite Nat.sub_0_r in *. assert (L0 : lya_elt (s_elts s2) k0 e) by (split; [exact N|]; split; [exists x; auto|exact Hb]). split.
        * intros (e' & L'). destruct (lya_unique _ _ _ _ _ L0 L') as (-> & _). reflexivity.
        * intro Q. injection Q as <-. exists e. exact L0.
      + split; [|discriminate]. intros (e & N & (x & Ix & T) & _). rewrite (Ft e x (nth_error_In _ _ N) Ix) in T. discriminate.
    - intro j. unfold es1. rewrite Tag. destruct (o_lya o) as [[[a|] [b|]] [c|]]; try reflexivity. destruct (find_tag 0 (s_elts s2) "LyAE") as [k0|]; [|reflexivity]. apply (at_k_nth (map_profiles (asym_of (Some a, Some b, Some c))) es k0 j). }
  destruct H1 as (kt & Hk & H1).
  assert (O1 : Forall elt_ok es1 /\ List.length es1 = List.length es).
  { assert (Sn : forall j, match nth_error es1 j with None => nth_error es j = None | Some x => nth_error es j <> None /\ elt_ok x end).
    { intro j. rewrite H1. assert (B : match nth_error es j with None => True | Some x => elt_ok x end) by (destruct (nth_error es j) eqn:N; [rewrite Forall_forall in Oe; apply Oe, (nth_error_In _ _ N)|trivial]).
      assert (G : forall b : bool, match (if b then option_map (map_profiles (asym_of (o_lya o))) (nth_error es j) else nth_error es j) with None => nth_error es j = None | Some x => nth_error es j <> None /\ elt_ok x end).
      { intros []; destruct (nth_error es j) as [x|]; cbn [option_map]; try reflexivity; (split; [discriminate|]); [apply map_profiles_ok; [apply asym_steady|exact B]|exact B]. }
      destruct (o_lya o) as [[[a|] [b|]] [c|]]; try apply (G false). apply G. }
    split.
    - apply Forall_forall. intros x I. apply In_nth_error in I. destruct I as (j & N). specialize (Sn j). rewrite N in Sn. apply Sn.
    - destruct (Nat.lt_trichotomy (List.length es1) (List.length es)) as [L|[L|L]]; [|exact L|]; exfalso.
      + specialize (Sn (List.length es1)). rewrite (proj2 (nth_error_None _ _)) in Sn by lia. apply nth_error_None in Sn. lia.
      + specialize (Sn (List.length es)). destruct (nth_error es1 (List.length es)) eqn:N; [destruct Sn as (X & _); apply X; apply nth_error_None; lia|]. apply nth_error_None in N. lia. }
  destruct O1 as (O1 & L1). set (es2 := if Z.eqb (o_igm o) (-1) then es1 else map (map_profiles (fun p => SetSymIgmParams p (o_igm o) (o_z o))) es1).
  assert (O2 : Forall elt_ok es2 /\ List.length es2 = List.length es1).
  { unfold es2. destruct (Z.eqb (o_igm o) (-1)); [auto|]. rewrite map_length. split; [|reflexivity]. apply Forall_forall. intros x I. apply in_map_iff in I. destruct I as (e & <- & I). apply map_profiles_ok; [apply igm_steady|]. rewrite Forall_forall in O1. apply O1, I. }
  split; [apply O2|]. split; [destruct O2 as (_ & O2); change (List.length es2 = List.length (s_elts s2)); lia|].
  intros k i y (e2 & N2 & M2). change (exists y', at_line es2 k i y' /\ same_line y y' /\ exists lya, l_profile y' = loaded_profile o lya (l_profile y) /\ (lya = true <-> exists e, lya_elt (s_elts s2) k e)).
  assert (N0 : nth_error (map reset_elt (s_elts s2)) k = Some (reset_elt e2)) by (rewrite nth_error_map, N2; reflexivity). destruct (F2_at _ _ _ _ _ El N0) as (e & Ne & (Kl & _)). cbn [reset_elt t_lines] in Kl.
  set (lya := match kt with Some k0 => Nat.eqb k k0 | None => false end).
  assert (Hl : lya = true <-> exists e, lya_elt (s_elts s2) k e).
  { rewrite (Hk k). unfold lya. destruct kt as [k0|]; [|split; discriminate]. rewrite Nat.eqb_eq. split; [intros ->; reflexivity|intro Q; injection Q as ->; reflexivity]. }
  assert (A1 : exists y1, at_line es1 k i y1 /\ same_line y y1 /\ l_profile y1 = match o_lya o with (Some _, Some _, Some _) => if lya then asym_of (o_lya o) (l_profile y) else l_profile y | _ => l_profile y end).
  { specialize (H1 k). rewrite Ne in H1. fold lya in H1. assert (Same : nth_error es1 k = Some e -> exists y1, at_line es1 k i y1 /\ same_line y y1 /\ l_profile y1 = l_profile y) by (intro Q; exists y; split; [exists e; rewrite Kl; auto|]; repeat split).
    destruct (o_lya o) as [[[a|] [b|]] [c|]]; auto. destruct lya; [|auto]. cbn [option_map] in H1. eexists. split; [eexists; split; [exact H1|]; cbn [map_profiles t_lines]; rewrite nth_error_map, Kl, M2; reflexivity|]. repeat split. }
  destruct A1 as (y1 & (f & Nf & Mf) & S1 & P1). exists (if Z.eqb (o_igm o) (-1) then y1 else reprofile (fun p => SetSymIgmParams p (o_igm o) (o_z o)) y1). unfold es2. split; [|split; [|exists lya; split; [|exact Hl]]].
  - destruct (Z.eqb (o_igm o) (-1)); [exists f; auto|]. exists (map_profiles (fun p => SetSymIgmParams p (o_igm o) (o_z o)) f). split; [rewrite nth_error_map, Nf; reflexivity|]. cbn [map_profiles t_lines]. rewrite nth_error_map, Mf. reflexivity.
  - destruct (Z.eqb (o_igm o) (-1)); [exact S1|]. destruct S1 as (Q1 & Q2 & Q3 & Q4 & Q5 & Q6). repeat split; cbn; assumption.
  - unfold loaded_profile. destruct (Z.eqb (o_igm o) (-1)); cbn [reprofile l_profile]; rewrite P1; destruct (o_lya o) as [[[a|] [b|]] [c|]], (l_profile y), lya; reflexivity.
Qed.
