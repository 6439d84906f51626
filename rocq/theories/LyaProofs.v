From Coq Require Import String.
From Verif Require Import Base RangeModel RangeProofs RangeGridProofs F64 RatSpec RatProofs LyaModel LyaSpec.
Open Scope Q_scope.

(** ** mapi and remap *)
Lemma mapi_nth {A B} (f : nat -> A -> B) l : forall n i, nth_error (mapi f n l) i = option_map (f (n + i)%nat) (nth_error l i).
Proof.
  induction l as [|x t IH]; intros n i; [destruct i; reflexivity|]. destruct i as [|i]; cbn [mapi nth_error].
  - rewrite Nat.add_0_r. reflexivity.
  - rewrite IH. replace (S n + i)%nat with (n + S i)%nat by lia. reflexivity.
Qed.
Lemma mapi_len {A B} (f : nat -> A -> B) l : forall n, List.length (mapi f n l) = List.length l.
Proof. induction l as [|x t IH]; intro n; [reflexivity|]. cbn [mapi List.length]. rewrite IH. reflexivity. Qed.
Lemma list_nth_eq {A} (l l' : list A) : (forall i, nth_error l i = nth_error l' i) -> l = l'.
Proof.
  revert l'. induction l as [|x t IH]; intros l' H; destruct l' as [|y t'].
  - reflexivity.
  - discriminate (H 0%nat).
  - discriminate (H 0%nat).
  - pose proof (H 0%nat) as H0. cbn in H0. injection H0 as <-. f_equal. apply IH. intro i. exact (H (S i)).
Qed.
Definition remap_e (f : nat -> profile -> profile) (e : elt) : elt := with_lines e (mapi (fun i x => (fst x, f i (snd x))) 0 (e_lines e)).
Lemma remap_nth f es k : nth_error (remap f es) k = option_map (remap_e (f k)) (nth_error es k).
Proof. unfold remap. rewrite mapi_nth. reflexivity. Qed.
Lemma remap_len f es : List.length (remap f es) = List.length es.
Proof. apply mapi_len. Qed.
Lemma remap_e_line f e i : nth_error (e_lines (remap_e f e)) i = option_map (fun x => (fst x, f i (snd x))) (nth_error (e_lines e) i).
Proof. unfold remap_e. cbn [with_lines e_lines]. rewrite mapi_nth. reflexivity. Qed.
Lemma remap_e_fields f e : e_asym (remap_e f e) = e_asym e /\ e_allout (remap_e f e) = e_allout e /\ e_out (remap_e f e) = e_out e /\ List.length (e_lines (remap_e f e)) = List.length (e_lines e).
Proof. repeat split. unfold remap_e. cbn [with_lines e_lines]. apply mapi_len. Qed.
Lemma remap_prof f es k i : prof (remap f es) k i = option_map (f k i) (prof es k i).
Proof.
  unfold prof. rewrite remap_nth. destruct (nth_error es k) as [e|]; [|reflexivity]. cbn [option_map]. rewrite remap_e_line.
  destruct (nth_error (e_lines e) i); reflexivity.
Qed.
Lemma mapi_fst (f : nat -> profile -> profile) (l : list (Z * profile)) : forall n, map fst (mapi (fun i x => (fst x, f i (snd x))) n l) = map fst l.
Proof. induction l as [|x t IH]; intro n; [reflexivity|]. cbn [mapi map fst]. rewrite IH. reflexivity. Qed.
Lemma remap_shape f es : same_shape es (remap f es).
Proof.
  unfold same_shape, remap. generalize 0%nat at 2 as n. induction es as [|e t IH]; intro n; [constructor|]. cbn [mapi]. constructor; [|apply IH].
  cbn. repeat (split; [reflexivity|]). apply mapi_fst.
Qed.
Lemma remap_e_ext f g e : (forall i x, nth_error (e_lines e) i = Some x -> f i (snd x) = g i (snd x)) -> remap_e f e = remap_e g e.
Proof.
  intro H. unfold remap_e, with_lines. f_equal. apply list_nth_eq. intro i. rewrite !mapi_nth. destruct (nth_error (e_lines e) i) as [x|] eqn:N; [|reflexivity].
  cbn [option_map Nat.add]. rewrite (H i x N). reflexivity.
Qed.
Lemma remap_ext f g es : (forall k i p, prof es k i = Some p -> f k i p = g k i p) -> remap f es = remap g es.
Proof.
  intro H. apply list_nth_eq. intro k. rewrite !remap_nth. destruct (nth_error es k) as [e|] eqn:N; [|reflexivity]. cbn [option_map]. f_equal.
  apply remap_e_ext. intros i x Nx. apply H. unfold prof. rewrite N, Nx. reflexivity.
Qed.
Lemma remap_remap f g es : remap f (remap g es) = remap (fun k i p => f k i (g k i p)) es.
Proof.
  apply list_nth_eq. intro k. rewrite !remap_nth. destruct (nth_error es k) as [e|]; [|reflexivity]. cbn [option_map]. f_equal.
  unfold remap_e, with_lines. cbn [e_lines e_asym e_allout e_out]. f_equal. apply list_nth_eq. intro i. rewrite !mapi_nth.
  destruct (nth_error (e_lines e) i); reflexivity.
Qed.
Lemma remap_id es : remap (fun _ _ p => p) es = es.
Proof.
  apply list_nth_eq. intro k. rewrite remap_nth. destruct (nth_error es k) as [e|]; [|reflexivity]. cbn [option_map]. f_equal. destruct e as [l a b c].
  unfold remap_e, with_lines. cbn. f_equal. apply list_nth_eq. intro i. rewrite mapi_nth. destruct (nth_error l i) as [[x y]|]; reflexivity.
Qed.
(** the kinds of the lines which are not registered do not change: the registration stays complete *)
Definition keeps_kind (f : profile -> profile) : Prop := forall p, (isAsym (f p) || isSymIgm (f p) = true -> isAsym p || isSymIgm p = true)%bool.
Lemma wf_remap f es : wf es -> (forall k i p, prof es k i = Some p -> ~ marked es k i -> (isAsym (f k i p) || isSymIgm (f k i p) = true -> isAsym p || isSymIgm p = true)%bool) -> wf (remap f es).
Proof.
  intros W H e' I. apply In_nth_error in I. destruct I as (k & N). rewrite remap_nth in N. destruct (nth_error es k) as [e|] eqn:Nk; [|discriminate]. cbn [option_map] in N. injection N as <-.
  destruct (W e (nth_error_In _ _ Nk)) as (A & B & C). destruct (remap_e_fields (f k) e) as (F1 & _ & _ & F4). unfold wf_elt. rewrite F1, F4. split; [exact A|]. split; [exact B|].
  intros i x' Nx T. rewrite remap_e_line in Nx. destruct (nth_error (e_lines e) i) as [x|] eqn:Ni; [|discriminate]. cbn [option_map] in Nx. injection Nx as <-. cbn [snd] in T.
  destruct (in_dec Nat.eq_dec i (e_asym e)) as [M|M]; [exact M|]. apply (C i x Ni). apply (H k i); auto.
  - unfold prof. rewrite Nk, Ni. reflexivity.
  - intros (e' & N' & I'). rewrite Nk in N'. injection N' as <-. tauto.
Qed.

(** ** the elementary updates *)
Definition inb (i : nat) (l : list nat) : bool := existsb (Nat.eqb i) l.
Lemma inb_spec i l : inb i l = true <-> In i l.
Proof. unfold inb. rewrite existsb_exists. split; [intros (x & I & E); apply Nat.eqb_eq in E; subst; exact I|intro I; exists i; split; [exact I|apply Nat.eqb_refl]]. Qed.
Lemma on_line_spec f e i : (i < List.length (e_lines e))%nat -> on_line f e i = Ok (remap_e (fun j p => if Nat.eqb j i then f p else p) e).
Proof.
  intro L. unfold on_line. destruct (nth_error_lt _ _ L) as (x & N). unfold vget. rewrite N. cbn [rbind].
  destruct (vset_ok (e_lines e) i (fst x, f (snd x)) L) as (l & V & Ll & Nl & Ol). rewrite V. cbn [rbind]. f_equal.
  unfold remap_e, with_lines. f_equal. apply list_nth_eq. intro j. rewrite mapi_nth. cbn [Nat.add]. destruct (Nat.eqb_spec j i) as [->|Nj].
  - rewrite Nl, N. reflexivity.
  - rewrite Ol by auto. destruct (nth_error (e_lines e) j) as [[a b]|]; reflexivity.
Qed.
Lemma remap_e_remap f g e : remap_e f (remap_e g e) = remap_e (fun i p => f i (g i p)) e.
Proof. unfold remap_e, with_lines. cbn [e_lines e_asym e_allout e_out]. f_equal. apply list_nth_eq. intro i. rewrite !mapi_nth. destruct (nth_error (e_lines e) i); reflexivity. Qed.
Lemma on_asym_spec f idx : forall e, NoDup idx -> (forall i, In i idx -> (i < List.length (e_lines e))%nat) -> on_asym f idx e = Ok (remap_e (fun j p => if inb j idx then f p else p) e).
Proof.
  induction idx as [|i t IH]; intros e D B.
  - cbn [on_asym]. f_equal. destruct e as [l a b c]. unfold remap_e, with_lines. cbn. f_equal. apply list_nth_eq. intro i. rewrite mapi_nth. destruct (nth_error l i) as [[x y]|]; reflexivity.
  - cbn [on_asym]. rewrite on_line_spec by (apply B; left; reflexivity). cbn [rbind]. inversion D as [|? ? Ni Dt]; subst. rewrite IH; auto.
    + f_equal. rewrite remap_e_remap. apply remap_e_ext. intros j x _. cbn [inb existsb]. fold (inb j t). destruct (Nat.eqb_spec j i) as [->|Nj]; cbn [orb].
      * destruct (inb i t) eqn:E; [apply inb_spec in E; tauto|reflexivity].
      * reflexivity.
    + intros j I. rewrite (proj2 (proj2 (proj2 (remap_e_fields _ e)))). apply B. right. exact I.
Qed.
(** an update of the lines which are asymmetric or SYMIGM only *)
Definition special (f : profile -> profile) : Prop := forall p, (isAsym p || isSymIgm p)%bool = false -> f p = p.
Lemma on_elt_spec f es k : wf es -> special f -> (k < List.length es)%nat -> on_elt f es k = Ok (remap (fun k' _ p => if Nat.eqb k' k then f p else p) es).
Proof.
  intros W Sp L. unfold on_elt. destruct (nth_error_lt _ _ L) as (e & N). unfold vget. rewrite N. cbn [rbind].
  destruct (W e (nth_error_In _ _ N)) as (D & B & C). rewrite (on_asym_spec f _ e D B). cbn [rbind].
  destruct (vset_ok es k (remap_e (fun j p => if inb j (e_asym e) then f p else p) e) L) as (l & V & Ll & Nl & Ol). rewrite V. f_equal.
  apply list_nth_eq. intro j. rewrite remap_nth. destruct (Nat.eqb_spec j k) as [->|Nj].
  - rewrite Nl, N. cbn [option_map]. f_equal. apply remap_e_ext. intros i x Nx. destruct (inb i (e_asym e)) eqn:E; [reflexivity|].
    destruct (isAsym (snd x) || isSymIgm (snd x))%bool eqn:K; [|symmetry; apply Sp; exact K].
    apply (C i x Nx) in K. apply inb_spec in K. congruence.
  - rewrite Ol by auto. destruct (nth_error es j) as [e'|]; [|reflexivity]. cbn [option_map]. f_equal. destruct e' as [l0 a b c]. unfold remap_e, with_lines. cbn. f_equal.
    apply list_nth_eq. intro i. rewrite mapi_nth. destruct (nth_error l0 i) as [[x y]|]; reflexivity.
Qed.
(** updates which keep the kind *)
Definition kind (p : profile) : nat := match p with Sym _ => 0 | Lor _ => 1 | Fixed _ _ _ => 2 | Fit _ _ _ => 3 | Igm _ _ _ _ => 4 end%nat.
Lemma kind_flags p q : kind p = kind q -> isAsym p = isAsym q /\ isSymIgm p = isSymIgm q /\ isAsymFit p = isAsymFit q /\ isAsymFixed p = isAsymFixed q.
Proof. destruct p, q; cbn; intro H; try discriminate; repeat split. Qed.
Lemma wf_kind f es : wf es -> (forall k i p, kind (f k i p) = kind p) -> wf (remap f es).
Proof. intros W K. apply wf_remap; auto. intros k i p _ _ H. destruct (kind_flags _ _ (K k i p)) as (A & B & _). rewrite A, B in H. exact H. Qed.
Lemma sp_asym a : special (fun p => SetAsymParams p a).
Proof. intros [] H; cbn in *; try discriminate; reflexivity. Qed.
Lemma sp_igm c z : special (fun p => SetSymIgmParams p c z).
Proof. intros [] H; cbn in *; try discriminate; reflexivity. Qed.
Lemma sp_fit b : special (fun p => SetSymIgmFit p b).
Proof. intros [] H; cbn in *; try discriminate; reflexivity. Qed.
Lemma sp_reset : special resetParams.
Proof. intros [] H; cbn in *; try discriminate; reflexivity. Qed.

(** ** the registered lines *)
Lemma igm_from_spec es : forall k0 : nat, 0%nat = 0%nat -> forall k l, In (k, l) (igm_from k0 es) <-> exists e, (k0 <= k)%nat /\ nth_error es (k - k0) = Some e /\ e_asym e = l /\ l <> [].
Proof.
  induction es as [|e t IH]; intros k0 _ k l.
  - split; [intros []|]. intros (e & _ & N & _). destruct (k - k0)%nat; discriminate.
  - assert (STEP : In (k, l) (igm_from (S k0) t) <-> exists e0, (S k0 <= k)%nat /\ nth_error (e :: t) (k - k0) = Some e0 /\ e_asym e0 = l /\ l <> []).
    { rewrite (IH (S k0) eq_refl k l). split; intros (e0 & L & N & R); exists e0; split; [lia| |lia|].
      - replace (k - k0)%nat with (S (k - S k0)) by lia. cbn. auto.
      - replace (k - k0)%nat with (S (k - S k0)) in N by lia. cbn in N. auto. }
    assert (HEAD : forall e0, (k0 <= k)%nat -> nth_error (e :: t) (k - k0) = Some e0 -> (k = k0 /\ e0 = e) \/ (S k0 <= k)%nat).
    { intros e0 L N. destruct (Nat.eq_dec k k0) as [->|Nk]; [left|right; lia]. rewrite Nat.sub_diag in N. cbn in N. injection N as <-. auto. }
    cbn [igm_from]. destruct (e_asym e) as [|a r] eqn:A.
    + rewrite STEP. split; intros (e0 & L & N & R).
      * exists e0. split; [lia|]. auto.
      * destruct (HEAD e0 L N) as [(-> & ->)|L']; [destruct R as (R1 & R2); congruence|]. exists e0. auto.
    + cbn [In]. rewrite STEP. split.
      * intros [E|(e0 & L & N & R)].
        -- injection E as <- <-. exists e. rewrite Nat.sub_diag. split; [lia|]. split; [reflexivity|]. split; [exact A|discriminate].
        -- exists e0. split; [lia|]. auto.
      * intros (e0 & L & N & R). destruct (HEAD e0 L N) as [(-> & ->)|L']; [left; f_equal; destruct R; congruence|right; exists e0; auto].
Qed.
Lemma igm_in es k l : In (k, l) (getIgmLinesIndices es) <-> exists e, nth_error es k = Some e /\ e_asym e = l /\ l <> [].
Proof.
  unfold getIgmLinesIndices. rewrite (igm_from_spec es 0 eq_refl). rewrite Nat.sub_0_r. split.
  - intros (e & _ & R). exists e. exact R.
  - intros (e & R). exists e. split; [lia|exact R].
Qed.
Lemma igm_keys_gt es : forall k0 k l, In (k, l) (igm_from k0 es) -> (k0 <= k)%nat.
Proof. induction es as [|e t IH]; intros k0 k l I; [destruct I|]. cbn [igm_from] in I. destruct (e_asym e); [apply IH in I; lia|]. destruct I as [E|I]; [injection E as <- <-; lia|apply IH in I; lia]. Qed.
Lemma igm_nodup es : forall k0, NoDup (map fst (igm_from k0 es)).
Proof.
  induction es as [|e t IH]; intro k0; [constructor|]. cbn [igm_from]. destruct (e_asym e); [apply IH|]. cbn [map fst]. constructor; [|apply IH].
  intro I. apply in_map_iff in I. destruct I as ([k l'] & E & I). cbn in E. subst k. apply igm_keys_gt in I. lia.
Qed.
Lemma igm_first es k i : first_marked es k i -> exists t r, getIgmLinesIndices es = (k, i :: t) :: r.
Proof.
  unfold getIgmLinesIndices. assert (G : forall es k0 k, first_marked es k i -> exists t r, igm_from k0 es = ((k0 + k)%nat, i :: t) :: r).
  { clear es k. induction es as [|e t IH]; intros k0 k ((e0 & t0 & N & A) & F); [destruct k; discriminate|]. destruct k as [|k].
    - cbn in N. injection N as <-. exists t0. cbn [igm_from]. rewrite A. rewrite Nat.add_0_r. eexists. reflexivity.
    - cbn in N. cbn [igm_from]. rewrite (F 0%nat e) by (auto; lia). destruct (IH (S k0) k) as (t1 & r1 & E).
      + split; [exists e0, t0; auto|]. intros j e' L N'. apply (F (S j) e'); [lia|exact N'].
      + rewrite E. replace (S k0 + k)%nat with (k0 + S k)%nat by lia. eauto. }
  intro H. apply (G es 0%nat k H).
Qed.
Lemma igm_none es : no_marked es -> getIgmLinesIndices es = [].
Proof. unfold getIgmLinesIndices. generalize 0%nat as k0. induction es as [|e t IH]; intros k0 N; [reflexivity|]. cbn [igm_from]. rewrite (N e) by (left; reflexivity). apply IH. intros e' I. apply N. right. exact I. Qed.
Lemma igm_shape f es : getIgmLinesIndices (remap f es) = getIgmLinesIndices es.
Proof.
  assert (G : forall g n k0, igm_from k0 (mapi (fun k e => with_lines e (g k e)) n es) = igm_from k0 es).
  { intro g. induction es as [|e t IH]; intros n k0; [reflexivity|]. cbn [mapi igm_from with_lines e_asym]. rewrite !IH. reflexivity. }
  apply (G (fun k e => mapi (fun i x => (fst x, f k i (snd x))) 0 (e_lines e))).
Qed.
