(** Specification vocabulary for the amplitude rules: what a user of the line model observes. *)
From Coq Require Import String.
From Verif Require Import Base RulesModel.
Open Scope Q_scope.

(** line [l] is line number [j] of element number [i] *)
Definition line_at (es : list elt) (i j : nat) (l : line) : Prop :=
  exists e, nth_error es i = Some e /\ nth_error (elines e) j = Some l.

(** [tag] designates line [j] of element [i] among the elements of type [ty]: it is the first line, in catalog
    order, whose name contains the tag *)
Definition designates (es : list elt) (ty : ltype) (tag : string) (i j : nat) : Prop :=
  exists e l, nth_error es i = Some e /\ nth_error (elines e) j = Some l /\
    etype e = ty /\ contains tag (lname l) = true /\
    (forall j' l', (j' < j)%nat -> nth_error (elines e) j' = Some l' -> contains tag (lname l') = false) /\
    (forall i' e', (i' < i)%nat -> nth_error es i' = Some e' -> etype e' = ty ->
       forall l', In l' (elines e') -> contains tag (lname l') = false).

(** all elements but those with the listed numbers are untouched *)
Definition untouched_but (touched : list nat) (es es' : list elt) : Prop :=
  length es' = length es /\ forall i, ~ In i touched -> nth_error es' i = nth_error es i.

(** the catalog part of two lines is the same, amplitudes may differ *)
Definition same_line (l l' : line) : Prop :=
  lname l' = lname l /\ lforce l' = lforce l /\ nom l' = nom l /\ lout l' = lout l /\ lgout l' = lgout l.
Definition same_elt (P : line -> line -> Prop) (e e' : elt) : Prop :=
  etype e' = etype e /\ eabs e' = eabs e /\ eout e' = eout e /\ egout e' = egout e /\
  Forall2 (fun l l' => same_line l l' /\ P l l') (elines e) (elines e').

(** equality of amplitudes, NaN equal to itself *)
Definition oeq (a b : option Q) : Prop :=
  match a, b with Some x, Some y => x == y | None, None => True | _, _ => False end.

(** a is between (inclusive) b and c *)
Definition between (a b c : Q) : Prop := (b <= a /\ a <= c) \/ (c <= a /\ a <= b).

(** inverse-variance weight of a measurement of error e, seen with a scale factor k; 0 for a null error *)
Definition ivw (e k : Q) : Q := if Qeq_bool e 0 then 0 else 1 / ((k * e) * (k * e)).

(** amplitude-proportional element: all its (defined) line amplitudes are nominal * A for one A >= 0 *)
Definition proportional (e : elt) : Prop :=
  exists A, 0 <= A /\ forall l, In l (elines e) -> match fit l with Some v => v == nom l * A | None => True end.
Definition positive_nominals (e : elt) : Prop := forall l, In l (elines e) -> 0 < nom l.
Definition amplitudes_nonneg (e : elt) : Prop :=
  forall l v, In l (elines e) -> fit l = Some v -> 0 <= v.

(** an in-range line of type [ty] of the model with a defined amplitude *)
Definition in_range_line (es : list elt) (ty : ltype) (l : line) : Prop :=
  exists e, In e es /\ etype e = ty /\ In l (elines e) /\ lout l = false.
(** [m] is the amplitude of the lowest in-range strong line of type [ty] and [er] the error of such a line *)
Definition lowest_strong (es : list elt) (ty : ltype) (m : Q) (er : option Q) : Prop :=
  (exists l, in_range_line es ty l /\ lforce l = Strong /\ fit l = Some m /\ fstd l = er) /\
  (forall l v, in_range_line es ty l -> lforce l = Strong -> fit l = Some v -> m <= v).
Definition no_strong (es : list elt) (ty : ltype) : Prop :=
  forall l, in_range_line es ty l -> lforce l = Strong -> fit l = None.

(** an amplitude never goes up (NaN may stay NaN or, for a line rescaled with its element, become defined) *)
Definition not_raised (l l' : line) : Prop :=
  forall v, fit l = Some v -> exists v', fit l' = Some v' /\ v' <= v.

(** two in-range emission lines designated by the tags, in different elements, with unit nominal amplitudes,
    amplitudes a, b and errors ea, eb *)
Record doublet (es : list elt) (tagA tagB : string) (iA iB : nat) (eA eB : elt) (jA jB : nat) (lA lB : line)
  (a b ea eb : Q) : Prop := {
  dA : designates es Emission tagA iA jA; dB : designates es Emission tagB iB jB;
  dAB : iA <> iB;
  dEA : nth_error es iA = Some eA; dEB : nth_error es iB = Some eB;
  dLA : nth_error (elines eA) jA = Some lA; dLB : nth_error (elines eB) jB = Some lB;
  dinA : eout eA = false /\ egout eA = false /\ lgout lA = false;
  dinB : eout eB = false /\ egout eB = false /\ lgout lB = false;
  dnA : nom lA == 1; dnB : nom lB == 1;
  dfA : fit lA = Some a; dfB : fit lB = Some b;
  dsA : fstd lA = Some ea; dsB : fstd lB = Some eb }.

(** every in-range line of the element has a defined amplitude *)
Definition in_range_defined (e : elt) : Prop :=
  forall l, In l (elines e) -> lout l = false -> exists v, fit l = Some v.

(** elements the fitters produce: positive nominal amplitudes, amplitudes proportional to them, in-range lines defined *)
Definition fitted_elt (e : elt) : Prop := positive_nominals e /\ proportional e /\ in_range_defined e.

(** no element of the type has both strong and weak in-range lines *)
Definition unmixed (es : list elt) (ty : ltype) : Prop :=
  forall e, In e es -> etype e = ty -> forall l l', In l (elines e) -> In l' (elines e) ->
    lout l = false -> lout l' = false -> lforce l = Strong -> lforce l' = Weak -> False.

(** all defined line amplitudes are nominal * A *)
Definition scaled (A : Q) (e : elt) : Prop :=
  forall l, In l (elines e) -> match fit l with Some v => v == nom l * A | None => True end.
(** positive nominal amplitudes, non-negative amplitudes *)
Definition sound (es : list elt) : Prop := forall e, In e es -> positive_nominals e /\ amplitudes_nonneg e.

Definition is_two (r : rule) : Prop :=
  match r with TwoSingle Emission _ _ c => 0 < c | _ => False end.

Definition target (r : rule) : string := match r with TwoSingle _ _ b _ => b | _ => ""%string end.
