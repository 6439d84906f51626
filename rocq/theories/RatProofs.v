From Verif Require Import Base RangeModel AxisModel MeikModel EfitModel F64 RatModel RatSpec.
Open Scope Q_scope.

(** order of the Float64 *)
Lemma flt_trans a b c : flt a b = true -> flt b c = true -> flt a c = true.
Proof.
  destruct a as [| | |a], b as [| | |b], c as [| | |c]; cbn [flt]; intros H1 H2; try discriminate; auto.
  destruct (Qltb_spec a b) as [L1|L1]; [|discriminate]. destruct (Qltb_spec b c) as [L2|L2]; [|discriminate].
  destruct (Qltb_spec a c) as [L3|L3]; auto. exfalso. apply L3. apply (Qlt_trans _ b); auto.
Qed.
Lemma flt_irrefl a : flt a a = false.
Proof. destruct a as [| | |a]; cbn [flt]; auto. destruct (Qltb_spec a a) as [L|L]; auto. apply Qlt_irrefl in L. tauto. Qed.
(** a < x and not y < x, y a number: a < y *)
Lemma flt_le_trans a x y : flt a x = true -> flt y x = false -> flt y PInf = true -> flt a y = true.
Proof.
  destruct a as [| | |a], x as [| | |x], y as [| | |y]; cbn [flt]; intros H1 H2 H3; try discriminate; auto.
  destruct (Qltb_spec a x) as [L1|L1]; [|discriminate]. destruct (Qltb_spec y x) as [L2|L2]; [discriminate|].
  destruct (Qltb_spec a y) as [L3|L3]; auto. exfalso. apply L3. lra.
Qed.
(** not b < a and not x < b...: x < a and not (b < a)... *)
Lemma flt_not_trans y x a : flt y x = false -> flt a x = true -> flt y a = false.
Proof.
  intros H1 H2. destruct (flt y a) eqn:E; auto. rewrite (flt_trans _ _ _ E H2) in H1. discriminate.
Qed.
Lemma fadd0 a b : flt (fadd a (Fin 0)) (fadd b (Fin 0)) = flt a b.
Proof.
  destruct a as [| | |a], b as [| | |b]; cbn [flt fadd]; auto.
  destruct (Qltb_spec (a + 0) (b + 0)) as [L|L], (Qltb_spec a b) as [L'|L']; auto; exfalso; lra.
Qed.

Section Scan.
  Context {A : Type}.
  Variable key : A -> f64.
  Definition kcur (cur : option A) : f64 := match cur with None => PInf | Some x => key x end.
  Definition pick (cur : option A) (a : A) : option A := if flt (key a) (kcur cur) then Some a else cur.
  Definition scan (l : list A) : option A := fold_left pick l None.
  Lemma scan_snoc l a : scan (l ++ [a]) = pick (scan l) a.
  Proof. unfold scan. rewrite fold_left_app. reflexivity. Qed.

  Lemma scan_spec l : match scan l with None => none_counts key l | Some x => first_least key l x end.
  Proof.
    induction l as [|a l IH] using rev_ind; [intros y []|].
    rewrite scan_snoc. unfold pick. destruct (scan l) as [x|]; cbn [kcur].
    - destruct IH as (b & af & -> & F & B & Af).
      destruct (flt (key a) (key x)) eqn:E.
      + exists (b ++ x :: af), []. split; [reflexivity|]. split; [apply (flt_trans _ _ _ E F)|]. split; [|intros y []].
        intros y I N. apply in_app_or in I. destruct I as [I|[I|I]].
        * apply (flt_trans _ _ _ E). apply B; auto.
        * subst y. exact E.
        * apply (flt_le_trans _ (key x)); auto.
      + exists b, (af ++ [a]). split; [rewrite <- app_assoc; reflexivity|]. split; auto. split; auto.
        intros y I. apply in_app_or in I. destruct I as [I|[I|[]]]; [apply Af; auto|]. subst y. exact E.
    - destruct (flt (key a) PInf) eqn:E.
      + exists l, []. split; [reflexivity|]. split; auto. split; [|intros y []].
        intros y I N. rewrite (IH y I) in N. discriminate.
      + intros y I. apply in_app_or in I. destruct I as [I|[I|[]]]; [apply IH; auto|]. subst y. exact E.
  Qed.
  Lemma scan_in l x : scan l = Some x -> In x l.
  Proof.
    intro E. pose proof (scan_spec l) as Sp. rewrite E in Sp. destruct Sp as (b & a & -> & _). apply in_or_app. right. left. reflexivity.
  Qed.
  (** the first least of all is the first least of every part that holds it *)
  Lemma scan_filter (P : A -> bool) l x : scan l = Some x -> P x = true -> scan (filter P l) = Some x.
  Proof.
    assert (G : forall l, (forall x, scan l = Some x -> P x = true -> scan (filter P l) = Some x) /\
                          flt (kcur (scan (filter P l))) (kcur (scan l)) = false).
    { clear l x. intro l. induction l as [|a l IH] using rev_ind.
      - split; [discriminate|]. apply flt_irrefl.
      - destruct IH as [IH1 IH2]. rewrite filter_app. cbn [filter].
        assert (E2 : scan (filter P l ++ (if P a then [a] else [])) = if P a then pick (scan (filter P l)) a else scan (filter P l)).
        { destruct (P a); [apply scan_snoc|rewrite app_nil_r; reflexivity]. }
        rewrite E2, scan_snoc. unfold pick at 1 4.
        destruct (flt (key a) (kcur (scan l))) eqn:E.
        + split.
          * intros x Ex Px. inversion Ex; subst x. rewrite Px. unfold pick.
            destruct (flt (key a) (kcur (scan (filter P l)))) eqn:E'; auto.
            exfalso. destruct (flt (kcur (scan (filter P l))) PInf) eqn:F.
            { rewrite (flt_le_trans _ _ _ E IH2 F) in E'. discriminate. }
            { destruct (scan (filter P l)) as [y|] eqn:Ey; cbn [kcur] in *.
              - pose proof (scan_spec (filter P l)) as Sp. rewrite Ey in Sp. destruct Sp as (? & ? & ? & N & _). rewrite N in F. discriminate.
              - pose proof (scan_spec (l ++ [a])) as Sp. rewrite scan_snoc in Sp. unfold pick in Sp. rewrite E in Sp.
                destruct Sp as (? & ? & ? & N & _). rewrite N in E'. discriminate. }
          * cbn [kcur]. destruct (P a) eqn:Pa.
            { unfold pick. destruct (flt (key a) (kcur (scan (filter P l)))) eqn:E'; cbn [kcur]; [apply flt_irrefl|].
              apply (flt_not_trans _ (kcur (scan l)) _ IH2 E). }
            { apply (flt_not_trans _ (kcur (scan l)) _ IH2 E). }
        + split.
          * intros x Ex Px. destruct (P a) eqn:Pa; [|apply IH1; auto]. unfold pick. rewrite (IH1 x Ex Px). cbn [kcur].
            rewrite Ex in E. cbn [kcur] in E. rewrite E. reflexivity.
          * destruct (P a) eqn:Pa; [|exact IH2]. unfold pick. destruct (flt (key a) (kcur (scan (filter P l)))); cbn [kcur]; auto. }
    intros E Px. apply (proj1 (G l)); auto.
  Qed.
End Scan.
Lemma scan_ext {A} (k1 k2 : A -> f64) l :
  (forall x y, In x l -> In y l -> flt (k1 x) (k1 y) = flt (k2 x) (k2 y)) ->
  (forall x, In x l -> flt (k1 x) PInf = flt (k2 x) PInf) -> scan k1 l = scan k2 l.
Proof.
  induction l as [|a l IH] using rev_ind; intros H H'; [reflexivity|].
  rewrite !scan_snoc. rewrite IH; [| intros x y I J; apply H; apply in_or_app; auto | intros x I; apply H'; apply in_or_app; auto].
  unfold pick. destruct (scan k2 l) as [x|] eqn:E; cbn [kcur].
  - rewrite H; auto; apply in_or_app; [right; left; reflexivity|]. left. apply (scan_in k2 _ _ E).
  - rewrite H'; auto. apply in_or_app; right; left; reflexivity.
Qed.
