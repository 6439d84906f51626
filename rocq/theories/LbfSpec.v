(** Specification vocabulary of the L-BFGS-B fitter (C94). *)
From Verif Require Import Base F64 PolyModel LbfModel.
Open Scope Q_scope.

(** number of parameters that a group of [m] elements of [nk] kinds needs *)
Definition needed (c : conf) (m nk : nat) : nat :=
  (m + (if c_vel c then nk else 0) + (if c_off c then 1 else 0) + (if c_poly c then 3 else 0))%nat.
(** number of kinds of lines in the group *)
Definition has (k : kind) (l : list kind) : bool := existsb (same_kind k) l.
Definition kinds_count (l : list kind) : nat := ((if has Em l then 1 else 0) + (if has Ab l then 1 else 0))%nat.

(** With the velocities fitted, a group is regular if all its elements have the same kind, but possibly the last. *)
Definition regular (c : conf) (l : list kind) : Prop :=
  c_vel c = true -> exists k a tail, l = (a ++ tail)%list /\ Forall (eq k) a /\ a <> [] /\ (length tail <= 1)%nat.

(** The elements of a group are well formed: one value per line, at least one line. *)
Definition wf (e : elt) : Prop :=
  lines e <> [] /\ length (offs e) = length (lines e) /\ length (outs e) = length (lines e) /\
  length (amps e) = length (lines e) /\ length (stds e) = length (lines e) /\ out e = forallb (fun b => b) (outs e).

(** line [j] of element [e] is inside the range *)
Definition inside (e : elt) (j : nat) : Prop := out e = false /\ nth_error (outs e) j = Some false.

Definition sumQ {A} (f : A -> Q) : list A -> Q := fix go l := match l with [] => 0 | a :: t => f a + go t end.

(** value of the model of one element at wavelength [x] over continuum [cx]: the sum over its lines inside the range
    with a non-negative amplitude of +- amplitude * profile *)
Fixpoint lines_value (prof : kind -> line -> Q -> Q -> Q -> Q) (k : kind) (v x cx : Q) (ls : list line) (os : list Q)
    (ou : list bool) (am : list (option Q)) : Q :=
  match ls, os, ou, am with
  | l :: ls, o :: os, b :: ou, a :: am =>
      (match b, a with
       | false, Some a => if Qltb a 0 then 0 else match k with Em => a * prof k l v o x | Ab => - (cx * a * prof k l v o x) end
       | _, _ => 0
       end) + lines_value prof k v x cx ls os ou am
  | _, _, _, _ => 0
  end.
Definition elt_value (prof : kind -> line -> Q -> Q -> Q -> Q) (x cx : Q) (e : elt) : Q :=
  if out e then 0 else lines_value prof (kd e) (velocity e) x cx (lines e) (offs e) (outs e) (amps e).

(** point within bounds *)
Definition ge_bound (b : f64) (x : Q) : Prop := match b with Fin q => q <= x | NInf => True | _ => False end.
Definition le_bound (x : Q) (b : f64) : Prop := match b with Fin q => x <= q | PInf => True | _ => False end.
Definition within (b : list (f64 * f64)) (x : list Q) : Prop :=
  Forall2 (fun p v => ge_bound (fst p) v /\ le_bound v (snd p)) b x.
(** the minimiser returns points within the bounds *)
Definition bounded_solver (s : list (f64 * f64) -> list Q -> list (list Q * Q) -> action) : Prop :=
  forall b g h x, s b g h = Done x -> within b x.
(** the minimiser works in the dimension of the guess *)
Definition sized_solver (s : list (f64 * f64) -> list Q -> list (list Q * Q) -> action) : Prop :=
  forall b g h x, s b g h = Done x \/ s b g h = Eval x -> length x = length g.

(** the factor by which a velocity offset in km/s stretches a wavelength *)
Definition stretch (off : Q) : Q := 1 + off / speed_of_light.
(** the offsets of the lines of [e'] are those of the catalogue, all stretched by the same factor 1 + d *)
Definition stretched (d : Q) (e' : elt) : Prop :=
  Forall2 (fun o l => stretch o == stretch (l_off l) * (1 + d)) (offs e') (lines e').

(** states reached by evaluating points one after the other *)
Section Reach.
Context (ev : list elt -> list Q -> res (list elt * Q)).
Inductive reached : list elt -> list elt -> Prop :=
| r_refl st : reached st st
| r_step st st1 st2 x v : reached st st1 -> ev st1 x = Ok (st2, v) -> reached st st2.
End Reach.

(** some point is within the bounds *)
Definition feasible (b : list (f64 * f64)) : Prop := Forall (fun p => exists v, ge_bound (fst p) v /\ le_bound v (snd p)) b.
(** the minimiser ends within [fuel] evaluations, without an exception: for given bounds, for any which are feasible *)
Definition finishing_at (fuel : nat) (s : list (f64 * f64) -> list Q -> list (list Q * Q) -> action) (b : list (f64 * f64)) : Prop :=
  forall g h, s b g h <> Fail /\ (length h = fuel -> exists x, s b g h = Done x).
Definition finishing (fuel : nat) (s : list (f64 * f64) -> list Q -> list (list Q * Q) -> action) : Prop :=
  forall b, feasible b -> finishing_at fuel s b.

(** same value *)
Definition same_value (a b : f64) : Prop :=
  match a, b with Fin x, Fin y => x == y | NaN, NaN => True | PInf, PInf => True | NInf, NInf => True | _, _ => False end.

(** component of the parameter vector which holds the velocity of kind [k] (over [maxE]), the offset (over [offMax]) *)
Definition velocity_at (l : list kind) (k : kind) : nat :=
  (length l + match k with Em => if has Ab l then 1 else 0 | Ab => 0 end)%nat.
Definition offset_at (c : conf) (l : list kind) : nat := (length l + (if c_vel c then kinds_count l else 0))%nat.
(** amplitude of a line of nominal amplitude [nom] in an element of amplitude [a]: capped for an absorption with a limit *)
Definition line_amplitude (k : kind) (lim a nom v : Q) : Prop :=
  match k with
  | Em => v == a * nom
  | Ab => (0 < lim -> (a * nom <= lim -> v == a * nom) /\ (lim < a * nom -> v == lim)) /\ (lim <= 0 -> v == a * nom)
  end.

(** the parameters of element [e'], from those of [e], are those of the vector [x]; [l] are the kinds of the group *)
Definition unpacked_elt (c : conf) (l : list kind) (x : list Q) (i : nat) (e e' : elt) : Prop :=
  kd e' = kd e /\ lines e' = lines e /\
  (exists a, nth_error x i = Some a /\
     forall j ln, inside e j -> nth_error (lines e) j = Some ln ->
       exists v, nth_error (amps e') j = Some (Some v) /\ line_amplitude (kd e) (limit e) a (l_nom ln) v) /\
  (c_vel c = true -> exists v, nth_error x (velocity_at l (kd e)) = Some v /\ velocity e' = v * maxE c) /\
  (c_vel c = false -> velocity e' = velocity e) /\
  (c_off c = true -> exists d, nth_error x (offset_at c l) = Some d /\ stretched (d * (offMax c / speed_of_light)) e') /\
  (c_off c = false -> offs e' = offs e).

(** the largest absolute flux of the samples *)
Definition is_peak (flux : list Q) (xs : list nat) (p : Q) : Prop :=
  0 <= p /\ (forall i, In i xs -> exists f, nth_error flux i = Some f /\ Qabs f <= p) /\
  (p == 0 \/ exists i f, In i xs /\ nth_error flux i = Some f /\ p == Qabs f).
