(** Shared vocabulary of the model of Subaru-PFS/drp_1d.

    - [res]: outcome of a C++ call: normal return, C++ exception, undefined behaviour.
    - boolean comparisons on exact rationals [Q] (the model of [Float64] where only exact
      arithmetic and comparisons matter; rounding is not modelled, see DESIGN.md).
    - list/array access: [vget] models [std::vector::operator[]] (UB outside the bounds).
    - [lower_bound], [upper_bound]: models of [std::lower_bound]/[std::upper_bound]. *)
From Coq Require Export List Arith ZArith QArith Qabs Qround Qminmax Lia Lqa Psatz Bool.
From Coq Require Export Sorted Permutation.
Export ListNotations.

(** Error codes used by the modelled functions
    (RedshiftLibrary/RedshiftLibrary/common/errorcodes.i:1-75), plus the exceptions of the
    C++ standard library met on the modelled paths. *)
Inductive errcode : Type :=
| INTERNAL_ERROR | EXTERNAL_LIB_ERROR | INVALID_SPECTRUM_WAVELENGTH | INVALID_SPECTRUM_FLUX
| INVALID_NOISE | INVALID_WAVELENGTH_RANGE | NEGATIVE_CONTINUUMFIT | BAD_CONTINUUMFIT
| NULL_AMPLITUDES | PDF_PEAK_NOT_FOUND | STDESTIMATION_FAILED | MAX_AT_BORDER_PDF
| MISSING_PARAMETER | BAD_PARAMETER_VALUE | UNKNOWN_ATTRIBUTE | BAD_LINECATALOG
| BAD_LOGSAMPLEDSPECTRUM | BAD_COUNTMATCH | BAD_TEMPLATECATALOG | INVALID_SPECTRUM
| OVERLAPFRACTION_NOTACCEPTABLE | DZ_NOT_COMPUTABLE | INCOHERENT_INPUTPARAMETERS | BAD_CALZETTICORR
| CRANGE_VALUE_OUTSIDERANGE | CRANGE_VECTBORDERS_OUTSIDERANGE | CRANGE_NO_INTERSECTION
| INVALID_MERIT_VALUES | TPL_NAME_EMPTY | EMPTY_LIST | LESS_OBSERVED_SAMPLES_THAN_AMPLITUDES_TO_FIT
| SPECTRUM_CORRECTION_ERROR | SCOPESTACK_ERROR | FLAT_ZPDF | NEGATIVE_CONTINUUM | NULL_MODEL
| INVALID_SPECTRUM_INDEX | UNKNOWN_AIR_VACUUM_CONVERSION | BAD_LINE_TYPE | BAD_LINE_FORCE
| FFT_WITH_PHOTOMETRY_NOTIMPLEMENTED | MULTIOBS_WITH_PHOTOMETRY_NOTIMPLEMENTED
| MISSING_PHOTOMETRIC_DATA | MISSING_PHOTOMETRIC_TRANSMISSION | PDF_NORMALIZATION_FAILED
| INSUFFICIENT_TEMPLATE_COVERAGE | INSUFFICIENT_LSF_COVERAGE | INVALID_LSF | SPECTRUM_NOT_LOADED
| LSF_NOT_LOADED | UNALLOWED_DUPLICATES | UNSORTED_ARRAY | INVALID_DIRECTORY | INVALID_FILEPATH
| INVALID_PARAMETER | MISSING_CONFIG_OPTION | BAD_FILEFORMAT | INCOHERENT_CONFIG_OPTIONS
| ATTRIBUTE_NOT_SUPPORTED | INCOMPATIBLE_PDF_MODELSHAPES | UNKNOWN_RESULT_TYPE
| RELIABILITY_NEEDS_TENSORFLOW | OUTPUT_READER_ERROR | PYTHON_API_ERROR | INVALID_NAME
| INVALID_FILTER_INSTRUCTION | INVALID_FILTER_KEY | NO_CLASSIFICATION | INVALID_PARAMETER_FILE
| DUPLICATED_LINES | STAGE_NOT_RUN_BECAUSE_OF_PREVIOUS_FAILURE | LINE_RATIO_UNKNOWN_LINE
| STD_out_of_range | STD_length_error | STD_invalid_argument | STD_other.

Inductive res (A : Type) : Type :=
| Ok (a : A)
| Throw (e : errcode)
| UB.
Arguments Ok {A} a.
Arguments Throw {A} e.
Arguments UB {A}.

Definition rbind {A B} (r : res A) (f : A -> res B) : res B :=
  match r with Ok a => f a | Throw e => Throw e | UB => UB end.
Notation "'do' x <- r ; k" := (rbind r (fun x => k))
  (at level 200, x pattern, r at level 100, k at level 200, right associativity).

Definition is_ok {A} (r : res A) : bool := match r with Ok _ => true | _ => false end.

(** [std::vector::operator[]]: no bound check in C++, so out of range is UB. *)
Definition vget {A} (l : list A) (i : nat) : res A :=
  match nth_error l i with Some x => Ok x | None => UB end.

(** [v[i] = x] *)
Fixpoint vset {A} (l : list A) (i : nat) (x : A) : res (list A) :=
  match l, i with
  | [], _ => UB
  | _ :: t, O => Ok (x :: t)
  | h :: t, S j => match vset t j x with Ok t' => Ok (h :: t') | Throw e => Throw e | UB => UB end
  end.

Lemma vset_ok {A} (l : list A) i x : (i < length l)%nat ->
  exists l', vset l i x = Ok l' /\ length l' = length l /\
    nth_error l' i = Some x /\ (forall j, j <> i -> nth_error l' j = nth_error l j).
Proof.
  revert i; induction l as [|h t IH]; intros i Hi; simpl in *; [lia|].
  destruct i as [|i].
  - exists (x :: t); repeat split. intros j Hj. destruct j; [lia|reflexivity].
  - destruct (IH i) as (l' & He & Hl & Hn & Ho); [lia|].
    rewrite He. exists (h :: l'); repeat split; simpl; auto.
    intros j Hj. destruct j; [reflexivity|]. simpl. apply Ho. lia.
Qed.

Lemma vget_Ok {A} (l : list A) i x : vget l i = Ok x <-> nth_error l i = Some x.
Proof. unfold vget. destruct (nth_error l i); split; intro H; inversion H; auto. Qed.

Lemma vget_in {A} (l : list A) i : (i < length l)%nat -> exists x, vget l i = Ok x.
Proof.
  intro H. unfold vget. destruct (nth_error l i) eqn:E; [eauto|].
  apply nth_error_None in E. lia.
Qed.

(** ** Boolean comparisons on Q *)
Definition Qltb (x y : Q) : bool := negb (Qle_bool y x).
Definition Qmaxb (x y : Q) : Q := if Qltb x y then y else x.  (* std::max(x,y): (x < y) ? y : x *)
Definition Qminb (x y : Q) : Q := if Qltb y x then y else x.  (* std::min(x,y): (y < x) ? y : x *)

Lemma Qle_bool_spec x y : reflect (x <= y)%Q (Qle_bool x y).
Proof. destruct (Qle_bool x y) eqn:E; constructor.
  - apply Qle_bool_iff; exact E.
  - intro H. apply Qle_bool_iff in H. congruence. Qed.

Lemma Qltb_spec x y : reflect (x < y)%Q (Qltb x y).
Proof. unfold Qltb. destruct (Qle_bool_spec y x) as [H|H]; constructor.
  - apply Qle_not_lt; exact H.
  - apply Qnot_le_lt; exact H. Qed.

Lemma Qeq_bool_spec x y : reflect (x == y)%Q (Qeq_bool x y).
Proof. destruct (Qeq_bool x y) eqn:E; constructor.
  - apply Qeq_bool_iff; exact E.
  - intro H. apply Qeq_bool_iff in H. congruence. Qed.

Lemma Qltb_true x y : Qltb x y = true <-> (x < y)%Q.
Proof. destruct (Qltb_spec x y); intuition congruence. Qed.
Lemma Qltb_false x y : Qltb x y = false <-> (y <= x)%Q.
Proof. destruct (Qltb_spec x y) as [H|H]; split; intro K; try congruence.
  - apply Qlt_not_le in H; contradiction.
  - apply Qnot_lt_le; exact H. Qed.
Lemma Qle_bool_true x y : Qle_bool x y = true <-> (x <= y)%Q.
Proof. apply Qle_bool_iff. Qed.
Lemma Qle_bool_false x y : Qle_bool x y = false <-> (y < x)%Q.
Proof. destruct (Qle_bool_spec x y) as [H|H]; split; intro K; try congruence.
  - apply Qlt_not_le in K; contradiction.
  - apply Qnot_le_lt; exact H. Qed.

(** Case split on the first boolean rational comparison in goal or context. *)
Ltac qcase :=
  match goal with
  | |- context[Qltb ?x ?y] => destruct (Qltb_spec x y)
  | |- context[Qle_bool ?x ?y] => destruct (Qle_bool_spec x y)
  | |- context[Qeq_bool ?x ?y] => destruct (Qeq_bool_spec x y)
  | H : context[Qltb ?x ?y] |- _ => destruct (Qltb_spec x y)
  | H : context[Qle_bool ?x ?y] |- _ => destruct (Qle_bool_spec x y)
  | H : context[Qeq_bool ?x ?y] |- _ => destruct (Qeq_bool_spec x y)
  end.

Lemma Qmaxb_le_iff x a b : (Qmaxb a b <= x <-> a <= x /\ b <= x)%Q.
Proof. unfold Qmaxb. qcase; split; intros; try split; lra. Qed.
Lemma Qminb_ge_iff x a b : (x <= Qminb a b <-> x <= a /\ x <= b)%Q.
Proof. unfold Qminb. qcase; split; intros; try split; lra. Qed.
Lemma Qminb_le_iff x a b : (Qminb a b <= x <-> a <= x \/ b <= x)%Q.
Proof. unfold Qminb. qcase; split; intros; intuition lra. Qed.
Lemma Qmaxb_ge_iff x a b : (x <= Qmaxb a b <-> x <= a \/ x <= b)%Q.
Proof. unfold Qmaxb. qcase; split; intros; intuition lra. Qed.

(** ** Sorted grids *)
(** increasing (duplicates allowed) / strictly increasing sequences, by index *)
Definition increasing (l : list Q) : Prop :=
  forall i j x y, (i < j)%nat -> nth_error l i = Some x -> nth_error l j = Some y -> (x <= y)%Q.
Definition strictly_increasing (l : list Q) : Prop :=
  forall i j x y, (i < j)%nat -> nth_error l i = Some x -> nth_error l j = Some y -> (x < y)%Q.

Lemma strictly_increasing_increasing l : strictly_increasing l -> increasing l.
Proof. intros H i j x y Hij Hx Hy. apply Qlt_le_weak. eapply H; eauto. Qed.

Lemma increasing_tail a l : increasing (a :: l) -> increasing l.
Proof. intros H i j x y Hij Hx Hy. apply (H (S i) (S j) x y); simpl; auto; lia. Qed.
Lemma strictly_increasing_tail a l : strictly_increasing (a :: l) -> strictly_increasing l.
Proof. intros H i j x y Hij Hx Hy. apply (H (S i) (S j) x y); simpl; auto; lia. Qed.
Lemma increasing_head a l x : increasing (a :: l) -> In x l -> (a <= x)%Q.
Proof. intros H Hin. apply In_nth_error in Hin. destruct Hin as [k Hk].
  apply (H 0%nat (S k) a x); simpl; auto; lia. Qed.
Lemma strictly_increasing_head a l x : strictly_increasing (a :: l) -> In x l -> (a < x)%Q.
Proof. intros H Hin. apply In_nth_error in Hin. destruct Hin as [k Hk].
  apply (H 0%nat (S k) a x); simpl; auto; lia. Qed.
Lemma increasing_cons a l : (forall x, In x l -> (a <= x)%Q) -> increasing l -> increasing (a :: l).
Proof.
  intros H1 H2 i j x y Hij Hx Hy. destruct i as [|i]; destruct j as [|j]; simpl in *; try lia.
  - inversion Hx; subst. apply H1. eapply nth_error_In; eauto.
  - apply (H2 i j); auto; lia.
Qed.
Lemma strictly_increasing_cons a l : (forall x, In x l -> (a < x)%Q) -> strictly_increasing l -> strictly_increasing (a :: l).
Proof.
  intros H1 H2 i j x y Hij Hx Hy. destruct i as [|i]; destruct j as [|j]; simpl in *; try lia.
  - inversion Hx; subst. apply H1. eapply nth_error_In; eauto.
  - apply (H2 i j); auto; lia.
Qed.
Lemma increasing_nil : increasing [].
Proof. intros i j x y _ H. destruct i; discriminate. Qed.
Lemma strictly_increasing_nil : strictly_increasing [].
Proof. intros i j x y _ H. destruct i; discriminate. Qed.

(** ** [std::lower_bound], [std::upper_bound]
    Index of the first element not less than (resp. greater than) the value, [length l] when there
    is none (the [end()] iterator).  The C++ algorithm is a binary search; on a sorted vector it
    returns this very position (see [bsearch_lower_bound] below). *)
Fixpoint lower_bound (l : list Q) (v : Q) : nat :=
  match l with
  | [] => O
  | x :: t => if Qltb x v then S (lower_bound t v) else O
  end.
Fixpoint upper_bound (l : list Q) (v : Q) : nat :=
  match l with
  | [] => O
  | x :: t => if Qltb v x then O else S (upper_bound t v)
  end.

Lemma lower_bound_le_length l v : (lower_bound l v <= length l)%nat.
Proof. induction l as [|x t IH]; simpl; [lia|]. destruct (Qltb x v); simpl; lia. Qed.

Lemma lower_bound_before l v i x :
  (i < lower_bound l v)%nat -> nth_error l i = Some x -> (x < v)%Q.
Proof.
  revert i; induction l as [|a t IH]; intros i Hi Hx; simpl in *; [lia|].
  destruct (Qltb_spec a v) as [H|H]; [|lia].
  destruct i as [|i]; simpl in Hx.
  - inversion Hx; subst; exact H.
  - apply (IH i); [lia|exact Hx].
Qed.

Lemma lower_bound_at l v x :
  nth_error l (lower_bound l v) = Some x -> (v <= x)%Q.
Proof.
  induction l as [|a t IH]; simpl; [discriminate|].
  destruct (Qltb_spec a v) as [H|H]; simpl; intro Hx.
  - apply IH; exact Hx.
  - inversion Hx; subst. lra.
Qed.

Lemma lower_bound_from l v i x : increasing l ->
  (lower_bound l v <= i)%nat -> nth_error l i = Some x -> (v <= x)%Q.
Proof.
  intros Hs Hi Hx.
  destruct (nth_error l (lower_bound l v)) as [y|] eqn:Ey.
  - pose proof (lower_bound_at _ _ _ Ey) as Hy.
    destruct (Nat.eq_dec (lower_bound l v) i) as [E|E].
    + subst i. congruence.
    + pose proof (Hs _ _ _ _ (ltac:(lia) : (lower_bound l v < i)%nat) Ey Hx). lra.
  - apply nth_error_None in Ey.
    assert (i < length l)%nat by (apply nth_error_Some; congruence). lia.
Qed.

(** The libstdc++ algorithm: halve the length, advance when the middle element is less. *)
Fixpoint bsearch (fuel : nat) (l : list Q) (v : Q) (first len : nat) : nat :=
  match fuel with
  | O => first
  | S fuel' =>
      match len with
      | O => first
      | _ =>
        let half := Nat.div2 len in
        let middle := (first + half)%nat in
        match nth_error l middle with
        | Some x => if Qltb x v then bsearch fuel' l v (S middle) (len - half - 1)
                    else bsearch fuel' l v first half
        | None => first
        end
      end
  end.

Lemma bsearch_spec fuel l v : forall first len, increasing l ->
  (len < fuel)%nat -> (first + len <= length l)%nat ->
  (first <= lower_bound l v <= first + len)%nat ->
  bsearch fuel l v first len = lower_bound l v.
Proof.
  induction fuel as [|f IH]; intros first len Hs Hf Hl Hb; [lia|].
  cbn [bsearch]. destruct len as [|len]; [lia|].
  set (half := Nat.div2 (S len)).
  assert (Hh : (half < S len)%nat) by (unfold half; apply Nat.lt_div2; lia).
  destruct (nth_error l (first + half)) as [x|] eqn:Ex.
  2:{ apply nth_error_None in Ex. lia. }
  destruct (Qltb_spec x v) as [H|H].
  - apply IH; auto; try lia.
    destruct (le_lt_dec (lower_bound l v) (first + half)) as [K|K]; [|lia].
    pose proof (lower_bound_from _ _ _ _ Hs K Ex). lra.
  - apply IH; auto; try lia.
    destruct (le_lt_dec (lower_bound l v) (first + half)) as [K|K]; [lia|].
    pose proof (lower_bound_before _ _ _ _ K Ex). lra.
Qed.

Theorem bsearch_lower_bound l v : increasing l ->
  bsearch (S (length l)) l v 0 (length l) = lower_bound l v.
Proof.
  intro Hs. apply bsearch_spec; auto; try lia.
  pose proof (lower_bound_le_length l v); lia.
Qed.

Lemma upper_bound_le_length l v : (upper_bound l v <= length l)%nat.
Proof. induction l as [|x t IH]; simpl; [lia|]. destruct (Qltb v x); simpl; lia. Qed.

Lemma upper_bound_before l v i x :
  (i < upper_bound l v)%nat -> nth_error l i = Some x -> (x <= v)%Q.
Proof.
  revert i; induction l as [|a t IH]; intros i Hi Hx; simpl in *; [lia|].
  destruct (Qltb_spec v a) as [H|H]; [lia|].
  destruct i as [|i]; simpl in Hx.
  - inversion Hx; subst; lra.
  - apply (IH i); [lia|exact Hx].
Qed.

Lemma upper_bound_at l v x :
  nth_error l (upper_bound l v) = Some x -> (v < x)%Q.
Proof.
  induction l as [|a t IH]; simpl; [discriminate|].
  destruct (Qltb_spec v a) as [H|H]; simpl; intro Hx.
  - inversion Hx; subst. lra.
  - apply IH; exact Hx.
Qed.

Lemma upper_bound_from l v i x : increasing l ->
  (upper_bound l v <= i)%nat -> nth_error l i = Some x -> (v < x)%Q.
Proof.
  intros Hs Hi Hx.
  destruct (nth_error l (upper_bound l v)) as [y|] eqn:Ey.
  - pose proof (upper_bound_at _ _ _ Ey) as Hy.
    destruct (Nat.eq_dec (upper_bound l v) i) as [E|E].
    + subst i. congruence.
    + pose proof (Hs _ _ _ _ (ltac:(lia) : (upper_bound l v < i)%nat) Ey Hx). lra.
  - apply nth_error_None in Ey.
    assert (i < length l)%nat by (apply nth_error_Some; congruence). lia.
Qed.

(** first / last element *)
Definition front {A} (l : list A) : res A := vget l 0.
Definition back {A} (l : list A) : res A :=
  match l with [] => UB | _ => vget l (length l - 1) end.

Lemma nth_error_lt {A} (l : list A) i : (i < length l)%nat -> exists x, nth_error l i = Some x.
Proof. intro H. destruct (nth_error l i) eqn:E; [eauto|]. apply nth_error_None in E. lia. Qed.
Lemma nth_error_len {A} (l : list A) i x : nth_error l i = Some x -> (i < length l)%nat.
Proof. intro H. apply nth_error_Some. congruence. Qed.
