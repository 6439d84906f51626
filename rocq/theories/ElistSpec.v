(** Vocabulary for C68. *)
From Coq Require Import String.
From Verif Require Import Base ElemModel EfitModel ElistModel.
Open Scope Q_scope.

(** the element i is in the range and is not disabled *)
Definition valid (disabled : list nat) (es : list hel) (i : nat) : Prop := exists e, nth_error es i = Some e /\ b_out e = false /\ ~ In i disabled.
(** strictly increasing *)
Definition increasing_nat (l : list nat) : Prop := StronglySorted lt l.
Definition increasing_Z (l : list Z) : Prop := StronglySorted Z.lt l.
(** the window of a line *)
Definition half (e : hel) (l : hline) (z : Q) : Q := h_nsigma l * b_width e (h_pos l * (1 + z)) / 2.
Definition lo (e : hel) (l : hline) (z : Q) : Q := h_pos l * (1 + z) - half e l z.
Definition hi (e : hel) (l : hline) (z : Q) : Q := h_pos l * (1 + z) + half e l z.
(** a line of [e] in the range and a line of [ref] in the range have a common part of more than [thres] times the window of that of [ref]: there are two points
    in both windows further apart than that (for a positive threshold) *)
Definition shares (z thres : Q) (ref e : hel) : Prop :=
  exists r l, In r (b_lines ref) /\ In l (b_lines e) /\ h_out r = false /\ h_out l = false /\
    thres * (hi ref r z - lo ref r z) < Qmin (hi ref r z) (hi e l z) - Qmax (lo ref r z) (lo e l z).
(** the element k is fitted with the element i *)
Definition joined (es : list hel) (z thres : Q) (i k : nat) : Prop :=
  exists a b, nth_error es i = Some a /\ nth_error es k = Some b /\ b_out b = false /\ b_em b = b_em a /\ shares z thres a b.

(** a map from tags to the elements which have been pushed under the tag, in order *)
Definition grouped (pairs : list (string * nat)) (m : list (string * list nat)) : Prop :=
  StronglySorted (fun a b => String.compare (fst a) (fst b) = Lt) m /\
  (forall k l, In (k, l) m -> l <> [] /\ l = map snd (filter (fun p => String.eqb (fst p) k) pairs)) /\
  (forall k i, In (k, i) pairs -> exists l, In (k, l) m).
(** the group of a line in the velocity fit: its tag if there is one, else a group of its own *)
Definition vel_group (l : hline) : string := match h_vel l with Some t => t | None => String.append "single_" (h_sid l) end.
(** the lines of a type of the valid elements, in order, with their tags *)
Definition velfit_pairs (es : list hel) (em : bool) (idx : list nat) : list (string * nat) :=
  flat_map (fun i => match nth_error es i with
                     | Some e => map (fun l => (vel_group l, i)) (filter (fun l => Bool.eqb (h_em l) em) (b_lines e))
                     | None => [] end) idx.
(** the elements of a type with their fitting groups, in order *)
Definition fitting_pairs (es : list hel) (flt : option bool) (idx : list nat) : list (string * nat) :=
  flat_map (fun i => match nth_error es i with
                     | Some e => match b_group e with
                                 | Some k => if match flt with None => true | Some b => Bool.eqb b (b_em e) end then [(k, i)] else []
                                 | None => [] end
                     | None => [] end) idx.
(** the sample t is in the support of an element in the range of the list *)
Definition supported (es : list hel) (idx : list nat) (t : Z) : Prop :=
  exists i e p, In i idx /\ nth_error es i = Some e /\ b_out e = false /\ In p (b_supp e) /\ (fst p <= t <= snd p)%Z.
(** the group of the sample t: the first in the order of the tags *)
Definition first_group (es : list hel) (gs : list (string * list nat)) (t : Z) (g : string * list nat) : Prop :=
  exists pre post, gs = (pre ++ g :: post)%list /\ supported es (snd g) t /\ forall g', In g' pre -> ~ supported es (snd g') t.
(** the sum of the logarithms of the sums of squares *)
Fixpoint log_sum (logf : Q -> Q) (es : list hel) : Q :=
  match es with
  | [] => 0
  | e :: t => match b_out e, b_gauss e with
              | false, Some m => if Qltb 0 m then logf m + log_sum logf t else log_sum logf t
              | _, _ => log_sum logf t
              end
  end.
(** an emission line of a valid element with the positive amplitude a *)
Definition bright (disabled : list nat) (es : list hel) (l : hline) (a : Q) : Prop :=
  (exists i e, valid disabled es i /\ nth_error es i = Some e /\ In l (b_lines e)) /\ h_em l = true /\ h_amp l = Some a /\ 0 < a.
