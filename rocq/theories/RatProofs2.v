From Verif Require Import Base RangeModel AxisModel MeikModel EfitModel F64 RatModel RatSpec RatProofs.
Open Scope Q_scope.

Lemma rbind_ok {A B} (r : res A) (f : A -> res B) y : rbind r f = Ok y -> exists x, r = Ok x /\ f x = Ok y.
Proof. destruct r; cbn; intro H; try discriminate. eauto. Qed.
Lemma rfold_app' {A B} (f : B -> A -> res B) l1 l2 b : rfold f (l1 ++ l2) b = (do b' <- rfold f l1 b; rfold f l2 b').
Proof. revert b. induction l1 as [|x t IH]; intro b; cbn [rfold app rbind]; auto. destruct (f b x); cbn [rbind]; auto. Qed.
Lemma rfold_inv {A B} (f : B -> A -> res B) (P : B -> list A -> Prop) l b b' :
  (forall s d x s', P s d -> f s x = Ok s' -> P s' (d ++ [x])) -> P b [] -> rfold f l b = Ok b' -> P b' l.
Proof.
  intros St. assert (G : forall l d b, P b d -> rfold f l b = Ok b' -> P b' (d ++ l)).
  { clear l b. induction l as [|x t IH]; intros d b H E; cbn [rfold] in E.
    - inversion E; subst. rewrite app_nil_r. auto.
    - apply rbind_ok in E. destruct E as (s & E1 & E2).
      replace (d ++ x :: t) with ((d ++ [x]) ++ t) by (rewrite <- app_assoc; reflexivity). apply (IH _ s); auto.
      apply (St b d x); auto. }
  intros H E. apply (G l [] b); auto.
Qed.

Section H.
  Context {C : Type}.
  Variable v : env C.
  Lemma history_app c0 es h h' : history v c0 es (h ++ h') <-> history v c0 es h /\ history v c0 (last_es es h) h'.
  Proof.
    revert es. induction h as [|a t IH]; intro es; cbn [app history].
    - unfold last_es. cbn. tauto.
    - rewrite IH. unfold last_es. cbn [fold_left]. tauto.
  Qed.
  Lemma last_snoc es (h : list (attempt C)) a : last_es es (h ++ [a]) = t_es a.
  Proof. unfold last_es. rewrite fold_left_app. reflexivity. Qed.

  Lemma skipped_tried r b : knd v = TplRatio -> skipped v r = Ok b -> tried v r = negb b.
  Proof.
    intros K. unfold skipped, tried. rewrite K. destruct (noIsm v && Nat.ltb 0 r); cbn [andb].
    - unfold vget. destruct (nth_error (cat v) r) as [g|]; cbn [rbind]; intro H; inversion H. reflexivity.
    - intro H; inversion H. reflexivity.
  Qed.
  Lemma candidate_load c0 k c c' : (c = c0 \/ exists j, candidate v c0 j c) ->
    prepareAndLoadContinuum v k c = Ok c' -> candidate v c0 k c'.
  Proof.
    unfold candidate, prepareAndLoadContinuum, LoadFitContinuum. intros H E.
    assert (N : (Z.of_nat k <? 0)%Z = false) by (destruct (Z.ltb_spec (Z.of_nat k) 0) as [L|L]; auto; lia).
    destruct (comp v); [inversion E; subst c'; destruct H as [H|[? H]]; exact H | inversion E; subst c'; destruct H as [H|[? H]]; exact H |].
    rewrite N, Nat2Z.id in E. destruct (fromStore v).
    - destruct (nth_error (store v) k); inversion E; subst. reflexivity.
    - inversion E; subst c'. destruct H as [H|[? H]]; exact H.
  Qed.

  (** best so far *)
  Definition best_ok (h : list (attempt C)) (s : fstate (C := C)) : Prop :=
    match scan t_m h with
    | None => f_best s = PInf /\ f_k s = undefIdx /\ f_saved s = undefIdx /\ f_sol s = None
    | Some x => f_best s = t_m x /\ f_k s = Z.of_nat (t_k x) /\ f_sol s = Some (t_es x, t_c x) /\
                f_saved s = match knd v with TplRatio => Z.of_nat (t_r x) | Rules => undefIdx end
    end.
  (** the entry of one ratio *)
  Definition row_ok (l : list (attempt C)) (w : row) : Prop :=
    match scan with_prior l with
    | None => w_merit w = PInf /\ w_prior w = Fin 0
    | Some x => exists old, updateTplratioResults v old (t_m x) (t_p x) (t_es x) = Ok w
    end.
  Lemma row_ok_fields l w : row_ok l w ->
    match scan with_prior l with
    | None => w_merit w = PInf /\ w_prior w = Fin 0
    | Some x => w_merit w = t_m x /\ w_prior w = t_p x
    end.
  Proof.
    unfold row_ok. destruct (scan with_prior l); auto. intros [old E]. unfold updateTplratioResults in E. apply rbind_ok in E.
    destruct E as (? & _ & E). inversion E. auto.
  Qed.
  Definition tab_ok (h : list (attempt C)) (t : list row) : Prop :=
    forall r w, tried v r = true -> nth_error t r = Some w -> row_ok (of_ratio r h) w.

  Definition inv (c0 : C) (es0 : list elt) (h : list (attempt C)) (s : fstate (C := C)) : Prop :=
    history v c0 es0 h /\ f_es s = last_es es0 h /\ best_ok h s /\ (knd v = TplRatio -> tab_ok h (f_tab s)).

  Lemma keep_best_ok k r m h s a : best_ok h s -> t_m a = m -> t_k a = k -> t_es a = f_es s -> t_c a = f_c s ->
    r = match knd v with TplRatio => Z.of_nat (t_r a) | Rules => undefIdx end ->
    best_ok (h ++ [a]) (keep_best k r m s).
  Proof.
    intros B Em Ek Ee Ec Er. unfold best_ok, keep_best, better in *. rewrite fadd0. rewrite scan_snoc. unfold pick.
    destruct (scan t_m h) as [x|]; cbn [kcur].
    - destruct B as (B1 & B2 & B3 & B4). rewrite B1, <- Em. destruct (flt (t_m a) (t_m x)); cbn; auto.
      subst. rewrite Ee, Ec. auto.
    - destruct B as (B1 & B2 & B3 & B4). rewrite B1, <- Em. destruct (flt (t_m a) PInf); cbn; auto.
      subst. rewrite Ee, Ec. auto.
  Qed.
  Lemma keep_best_es k r m (s : fstate (C := C)) : f_es (keep_best k r m s) = f_es s.
  Proof. unfold keep_best. destruct (better m (f_best s)); reflexivity. Qed.
  Lemma keep_best_tab k r m (s : fstate (C := C)) : f_tab (keep_best k r m s) = f_tab s.
  Proof. unfold keep_best. destruct (better m (f_best s)); reflexivity. Qed.
  Lemma keep_best_c k r m (s : fstate (C := C)) : f_c (keep_best k r m s) = f_c s.
  Proof. unfold keep_best. destruct (better m (f_best s)); reflexivity. Qed.

  Lemma vset_inv {A} (l : list A) i x l' : vset l i x = Ok l' ->
    nth_error l' i = Some x /\ (forall j, j <> i -> nth_error l' j = nth_error l j) /\ length l' = length l.
  Proof.
    intro E. destruct (le_lt_dec (length l) i) as [G|G].
    - exfalso. clear -E G. revert i l' E G. induction l as [|h t IH]; intros i l' E G; cbn in *; [discriminate|].
      destruct i as [|i]; [lia|]. destruct (vset t i x) eqn:E'; try discriminate. apply (IH i a E'). lia.
    - destruct (vset_ok l i x G) as (l2 & E2 & L2 & N2 & O2). rewrite E2 in E. inversion E; subst. auto.
  Qed.
  Lemma of_ratio_snoc r h (a : attempt C) : of_ratio r (h ++ [a]) = if Nat.eqb (t_r a) r then of_ratio r h ++ [a] else of_ratio r h.
  Proof. unfold of_ratio. rewrite filter_app. cbn [filter]. destruct (Nat.eqb (t_r a) r); auto. apply app_nil_r. Qed.

  (** one entry is updated with the fit a *)
  Lemma row_step l w a w' : row_ok l w ->
    (if flt (with_prior a) (fadd (w_merit w) (w_prior w)) then updateTplratioResults v w (t_m a) (t_p a) (t_es a) = Ok w' else w' = w) ->
    row_ok (l ++ [a]) w'.
  Proof.
    intros R E. pose proof (row_ok_fields _ _ R) as F. unfold row_ok in *. rewrite scan_snoc. unfold pick.
    assert (K : kcur with_prior (scan with_prior l) = fadd (w_merit w) (w_prior w)).
    { destruct (scan with_prior l) as [x|]; destruct F as [F1 F2]; rewrite F1, F2; reflexivity. }
    rewrite K. destruct (flt (with_prior a) (fadd (w_merit w) (w_prior w))).
    - exists w. exact E.
    - subst w'. exact R.
  Qed.

  Definition step_ok (c0 : C) (es0 : list elt) (k : nat) (h : list (attempt C)) (s : fstate (C := C)) (r : nat) (s' : fstate (C := C)) : Prop :=
    f_c s' = f_c s /\ length (f_tab s') = length (f_tab s) /\ (forall j, j <> r -> nth_error (f_tab s') j = nth_error (f_tab s) j) /\
    if tried v r
    then exists a, t_k a = k /\ t_r a = r /\ inv c0 es0 (h ++ [a]) s'
    else inv c0 es0 h s' /\ (r < length (f_tab s))%nat /\ (0 < r)%nat /\ nth_error (f_tab s') r = nth_error (f_tab s) (r - 1).
  Lemma ratio_step_ok c0 es0 k h s r s' : candidate v c0 k (f_c s) -> inv c0 es0 h s ->
    ratio_step v k s r = Ok s' -> step_ok c0 es0 k h s r s'.
  Proof.
    intros Cd (Hh & He & Hb & Ht) E. unfold ratio_step in E. unfold step_ok. destruct (knd v) eqn:K.
    - apply rbind_ok in E. destruct E as (sk & Esk & E). pose proof (skipped_tried r sk K Esk) as Tr.
      destruct sk; cbn [negb] in Tr.
      + rewrite Tr. apply rbind_ok in E. destruct E as (t & Et & E). inversion E; subst s'; clear E. cbn [f_c f_tab].
        unfold duplicateTplratioResult in Et. apply rbind_ok in Et. destruct Et as (w & Ew & Et). apply rbind_ok in Et.
        destruct Et as (old & Eo & Et). apply vset_inv in Et. destruct Et as (T1 & T2 & T3).
        apply vget_Ok in Ew, Eo.
        split; [reflexivity|]. split; [exact T3|]. split; [exact T2|].
        assert (R0 : (0 < r)%nat).
        { destruct r; [|lia]. unfold tried in Tr. rewrite K in Tr. cbn in Tr. rewrite andb_false_r in Tr. discriminate. }
        split; [|split; [apply nth_error_Some; rewrite Eo; discriminate|split; [exact R0|rewrite T1; congruence]]].
        split; [exact Hh|]. split; [exact He|]. split; [exact Hb|]. intros _ r' w' T' N'. cbn [f_tab] in N'.
        assert (r' <> r) by (intro; subst; congruence). rewrite T2 in N' by auto. apply (Ht eq_refl r' w'); auto.
      + rewrite Tr. apply rbind_ok in E. destruct E as (es1 & E1 & E). apply rbind_ok in E. destruct E as (es2 & E2 & E).
        apply rbind_ok in E. destruct E as ([m s2] & E3 & E). inversion E; subst s'; clear E.
        unfold computeMerit_ratio in E3. cbn [set_es f_c f_es f_tab] in E3. apply rbind_ok in E3. destruct E3 as (m' & Em & E3).
        apply rbind_ok in E3. destruct E3 as (p & Ep & E3). apply rbind_ok in E3. destruct E3 as (w & Ew & E3). apply vget_Ok in Ew.
        set (a := mkA k r (f_c s) es2 m' p).
        assert (G : exists w', (if flt (with_prior a) (fadd (w_merit w) (w_prior w)) then updateTplratioResults v w m' p es2 = Ok w' else w' = w) /\
                    m = m' /\ f_es s2 = es2 /\ f_c s2 = f_c s /\ best_ok h s2 /\ length (f_tab s2) = length (f_tab s) /\
                    nth_error (f_tab s2) r = Some w' /\ (forall j, j <> r -> nth_error (f_tab s2) j = nth_error (f_tab s) j)).
        { unfold with_prior, a. cbn [t_m t_p]. destruct (flt (fadd m' p) (fadd (w_merit w) (w_prior w))).
          - apply rbind_ok in E3. destruct E3 as (w' & Eu & E3). apply rbind_ok in E3. destruct E3 as (t & Et & E3).
            inversion E3; subst; clear E3. apply vset_inv in Et. destruct Et as (T1 & T2 & T3). cbn [f_es f_c f_tab].
            exists w'. repeat split; auto.
          - inversion E3; subst; clear E3. exists w. cbn [f_es f_c f_tab set_es]. repeat split; auto. }
        destruct G as (w' & G1 & -> & G2 & G3 & G4 & G5 & G6 & G7).
        rewrite keep_best_c, keep_best_tab. split; [exact G3|]. split; [exact G5|]. split; [exact G7|].
        exists a. split; [reflexivity|]. split; [reflexivity|].
        split; [|split; [|split]].
        * apply history_app. split; [exact Hh|]. cbn [history]. split; auto. unfold made. cbn [t_k t_c t_es t_m a t_r t_p]. rewrite K.
          split; [exact Cd|]. split; [exact Em|]. exists es1. rewrite <- He. auto.
        * rewrite last_snoc, keep_best_es, G2. reflexivity.
        * apply keep_best_ok; auto. rewrite K. reflexivity.
        * intros _ r' w1 T' N'. rewrite keep_best_tab in N'. rewrite of_ratio_snoc. unfold a at 1. cbn [t_r].
          destruct (Nat.eqb_spec r r') as [Er|Er].
          { subst r'. rewrite G6 in N'. inversion N'; subst w1. apply (row_step _ w); [|exact G1]. apply (Ht eq_refl); auto. }
          { rewrite G7 in N' by auto. apply (Ht eq_refl); auto. }
    - assert (Tr : tried v r = true) by (unfold tried; rewrite K; reflexivity). rewrite Tr.
      apply rbind_ok in E. destruct E as (es2 & E2 & E). apply rbind_ok in E. destruct E as ([m s2] & E3 & E). inversion E; subst s'; clear E.
      unfold computeMerit_rules in E3. cbn [set_es f_c f_es f_tab f_saved f_best f_k f_sol] in E3. apply rbind_ok in E3. destruct E3 as (es3 & Eu & E3).
      apply rbind_ok in E3. destruct E3 as (m' & Em & E3). inversion E3; subst m s2; clear E3.
      rewrite keep_best_c, keep_best_tab. cbn [f_c f_tab]. split; [reflexivity|]. split; [reflexivity|]. split; [reflexivity|].
      set (a := mkA k r (f_c s) es3 m' (Fin 0)). exists a. split; [reflexivity|]. split; [reflexivity|].
      split; [|split; [|split; [|intro X; congruence]]].
      + apply history_app. split; [exact Hh|]. cbn [history]. split; auto. unfold made. cbn [t_k t_c t_es t_m a t_r t_p]. rewrite K.
        split; [exact Cd|]. split; [exact Em|]. exists es2. rewrite <- He. auto.
      + rewrite last_snoc, keep_best_es. reflexivity.
      + apply keep_best_ok; auto. cbn [f_saved]. rewrite K. unfold best_ok in Hb. rewrite K in Hb.
        destruct (scan t_m h); tauto.
  Qed.
End H.
