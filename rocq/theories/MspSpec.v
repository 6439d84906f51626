(** Vocabulary for C70. *)
From Coq Require Import String Qabs.
From Verif Require Import Base IntegSpec MspModel.
Open Scope Q_scope.

(** the sample t is in one of the ranges *)
Definition under (rs : list (Z * Z)) (t : nat) : Prop := exists b e, In (b, e) rs /\ (b <= Z.of_nat t <= e)%Z.
Definition underb (rs : list (Z * Z)) (t : nat) : bool := existsb (fun r => Z.leb (fst r) (Z.of_nat t) && Z.leb (Z.of_nat t) (snd r))%bool rs.
(** an element of the type asked: None is all, Some true emission, Some false absorption *)
Definition has_type (type : option bool) (e : elt) : bool := match type, e_em e with None, _ => true | Some true, b => b | Some false, b => negb b end.
(** what the elements of a type add to the sample t with the continuum c *)
Fixpoint lines (type : option bool) (es : list elt) (c : Q) (t : nat) : Q :=
  match es with
  | [] => 0
  | e :: k => (if has_type type e then if underb (e_win e) t then e_add e c t else 0 else 0) + lines type k c t
  end.
(** the amplitude offset at a sample *)
Definition offset_at (offs : option (list nat -> nat -> Q)) (idx : list nat) (t : nat) : Q := match offs with Some o => o idx t | None => 0 end.
Definition growing (axis : nat -> Q) : Prop := forall i j, (i < j)%nat -> axis i < axis j.
(** the distance to the centre of a window, in half widths, from one at the centre to zero at the borders *)
Definition proximity (axis : nat -> Q) (t b e : nat) : Q := 1 - Qabs (2 * axis t - axis b - axis e) / (axis e - axis b).
(** the windows of the elements with a positive amplitude of the type *)
Definition lit_windows (type : option bool) (es : list elt) : list (Z * Z) := flat_map e_win (filter (fun e => e_lit e && has_type type e)%bool es).
(** the last of the elements with the sample under its windows *)
Definition last_over (l : list elt) (t : nat) (e : elt) : Prop := exists a b, l = (a ++ e :: b)%list /\ under (e_win e) t /\ forall x, In x b -> ~ under (e_win x) t.
Definition poly_val (cs : list Q) (x : Q) : Q := fold_right (fun c acc => c + x * acc) 0 cs.
(** index ranges without a common sample *)
Definition apart (rs : list (nat * nat)) : Prop := ForallOrdPairs (fun r q => (snd r < fst q)%nat \/ (snd q < fst r)%nat) rs.
Definition as_Z (rs : list (nat * nat)) : list (Z * Z) := map (fun r => (Z.of_nat (fst r), Z.of_nat (snd r))) rs.
(** the sum of the integrals of a function over ranges *)
Definition integrals (axis f : nat -> Q) (n : nat) (rs : list (nat * nat)) : Q :=
  fold_right (fun r s => piecewise_linear_integral (map axis (seq 0 n)) (map f (seq 0 n)) (fst r) (snd r) + s) 0 rs.
(** the lines of the catalog in the range of a tag *)
Definition placed (find : string -> option (nat * bool)) (place : nat -> option (nat * nat)) (tag : string) : option (nat * nat) :=
  match find tag with Some (id, true) => place id | _ => None end.
(** the lines integrated together for the tag j: the line alone, or with the lines of its doublet before it *)
Definition together (find : string -> option (nat * bool)) (place : nat -> option (nat * nat)) (j : nat) (l : list (nat * nat)) : Prop :=
  exists tag name k p, nth_error strong_tags j = Some (tag, name, k) /\ placed find place tag = Some p /\
    l = match k with
        | O => [p]
        | _ => flat_map (fun x => match placed find place (fst (fst x)) with Some q => [q] | None => [] end) (filter (fun x => Nat.eqb (snd x) k) (firstn (S j) strong_tags))
        end.
(** the names reported, each with the names of its lines *)
Definition reported : list (string * list string) :=
  [("Ha", ["Halpha"]); ("OIIIa", ["[OIII]a"]); ("Hb", ["Hbeta"]); ("Lya", ["LyAE"]); ("OII", ["[OII]3726"; "[OII]3729"]); ("CIII", ["[CIII]1907"; "[CIII]1909"])]%string.
Definition all_placed (find : string -> option (nat * bool)) (place : nat -> option (nat * nat)) (tags : list string) : list (nat * nat) :=
  flat_map (fun x => match placed find place x with Some q => [q] | None => [] end) tags.
