(** Property C46: polynomial coefficients. *)
From Verif Require Import Base PolyModel.
From Coq Require Import Field.
Open Scope Q_scope.

(** specification: the plain polynomial *)
Definition poly (c0 c1 c2 x : Q) : Q := c0 + c1 * x + c2 * (x * x).

Lemma set_get p c0 c1 c2 : ~ scale p == 0 ->
  let '(d0, d1, d2) := getCoeffs (setCoeffs p c0 c1 c2) in d0 == c0 /\ d1 == c1 /\ d2 == c2.
Proof. intro H. cbn. split; [|split]; field; exact H. Qed.
Lemma get_value p x : ~ scale p == 0 ->
  let '(d0, d1, d2) := getCoeffs p in ngetValue p x == poly d0 d1 d2 x.
Proof. intro H. cbn. unfold ngetValue, poly. field. exact H. Qed.
Lemma centred x0 sc c0 c1 c2 x : ~ sc == 0 ->
  ngetValue (construct x0 sc c0 c1 c2) x == poly c0 c1 c2 ((x - x0) / sc).
Proof. intro H. unfold ngetValue, poly. cbn. field. exact H. Qed.

(** Setting then reading the coefficients gives them back, whatever the origin, the scale and the previous state. *)
Theorem C46_set_then_get : forall p c0 c1 c2, ~ scale p == 0 ->
  let '(d0, d1, d2) := getCoeffs (setCoeffs p c0 c1 c2) in d0 == c0 /\ d1 == c1 /\ d2 == c2.
Proof. exact set_get. Qed.
Print Assumptions C46_set_then_get.

(** After setting coefficients the normalised evaluation is the plain polynomial, for every x. *)
Theorem C46_value_after_set : forall p c0 c1 c2 x, ~ scale p == 0 ->
  ngetValue (setCoeffs p c0 c1 c2) x == poly c0 c1 c2 x.
Proof. intros p c0 c1 c2 x H. unfold ngetValue, poly. cbn. field. exact H. Qed.
Print Assumptions C46_value_after_set.

(** For directly fitted (normalised) coefficients, the coefficients read back describe the evaluated polynomial. *)
Theorem C46_get_describes_value : forall p x, ~ scale p == 0 ->
  let '(d0, d1, d2) := getCoeffs p in ngetValue p x == poly d0 d1 d2 x.
Proof. exact get_value. Qed.
Print Assumptions C46_get_describes_value.

(** the stored coefficients are those of the polynomial in (x - x0)/scale *)
Theorem C46_normalised_variable : forall x0 sc c0 c1 c2 x, ~ sc == 0 ->
  ngetValue (construct x0 sc c0 c1 c2) x == poly c0 c1 c2 ((x - x0) / sc).
Proof. exact centred. Qed.
Print Assumptions C46_normalised_variable.

(** value and gradient: the value is the evaluation, and the gradient gives the exact change of the value for any
    change of the coefficients *)
Definition dot3 (g : list Q) (d0 d1 d2 : Q) : Q := nth 0 g 0 * d0 + nth 1 g 0 * d1 + nth 2 g 0 * d2.
Theorem C46_gradient_plain : forall c0 c1 c2 d0 d1 d2 x,
  let '(v, g) := getValueAndGrad (mkPoly c0 c1 c2) x in
  v == getValue (mkPoly c0 c1 c2) x /\ v == poly c0 c1 c2 x /\ length g = 3%nat /\
  getValue (mkPoly (c0 + d0) (c1 + d1) (c2 + d2)) x - v == dot3 g d0 d1 d2.
Proof. intros. cbn. unfold getValue, poly, dot3. cbn. split; [ring|]. split; [ring|]. split; [reflexivity|ring]. Qed.
Print Assumptions C46_gradient_plain.

Theorem C46_gradient_normalised : forall c0 c1 c2 d0 d1 d2 x r s, ~ s == 0 ->
  let '(v, g) := ngetValueAndGrad (mkNPoly c0 c1 c2 r s) x in
  v == ngetValue (mkNPoly c0 c1 c2 r s) x /\ length g = 3%nat /\
  ngetValue (mkNPoly (c0 + d0) (c1 + d1) (c2 + d2) r s) x - v == dot3 g d0 d1 d2.
Proof. intros. cbn. unfold ngetValue, dot3. cbn. split; [ring|]. split; [reflexivity|ring]. Qed.
Print Assumptions C46_gradient_normalised.

Theorem C46_from_list : forall c, match ofList c with
  | Ok p => nth_error c 0 = Some (a0 p) /\ nth_error c 1 = Some (a1 p) /\ nth_error c 2 = Some (a2 p)
  | Throw er => er = INTERNAL_ERROR /\ (length c <= 2)%nat
  | UB => False end.
Proof.
  intro c. unfold ofList. destruct (Nat.leb_spec (length c) 2) as [H|H]; [auto|].
  destruct c as [|x0 [|x1 [|x2 r]]]; cbn in H; try lia. cbn. auto.
Qed.
Print Assumptions C46_from_list.

Example C46_ex : let p := construct 5000 100 7 8 9 in ~ scale p == 0 /\
  ngetValue (setCoeffs p 1 2 3) 5 == 86 /\ n2 (setCoeffs p 1 2 3) == 30000.
Proof. split; [|split]; [vm_compute; discriminate|reflexivity|reflexivity]. Qed.
