(** What the fit of the line model at one redshift is expected to give (C86). *)
From Verif Require Import Base RangeModel EfitModel F64 RatModel.
Open Scope Q_scope.

(** one fit that was made: with the continuum candidate k and the ratio r, the continuum, the elements it gave, its chi-square and its prior *)
Record attempt (C : Type) := mkA { t_k : nat; t_r : nat; t_c : C; t_es : list elt; t_m : f64; t_p : f64 }.
Arguments mkA {C}. Arguments t_k {C}. Arguments t_r {C}. Arguments t_c {C}. Arguments t_es {C}. Arguments t_m {C}. Arguments t_p {C}.

Section Least.
  Context {A : Type}.
  Variable key : A -> f64.
  (** x comes first in l among the elements of least key; the elements whose key is NaN or +infinity do not count *)
  Definition first_least (l : list A) (x : A) : Prop :=
    exists before after, l = before ++ x :: after /\ flt (key x) PInf = true /\
      (forall y, In y before -> flt (key y) PInf = true -> flt (key x) (key y) = true) /\
      (forall y, In y after -> flt (key y) (key x) = false).
  Definition none_counts (l : list A) : Prop := forall y, In y l -> flt (key y) PInf = false.
End Least.

(** the pairs (candidate, ratio) of nk candidates and nr ratios, candidate after candidate *)
Definition pairs (nk nr : nat) (tried : nat -> bool) : list (nat * nat) :=
  flat_map (fun k => map (fun r => (k, r)) (filter tried (seq 0 nr))) (seq 0 nk).

(** e' is e with other amplitudes: same lines, same nominal amplitudes *)
Definition same_lines (e e' : elt) : Prop :=
  e_abs e' = e_abs e /\ e_out e' = e_out e /\ e_allout e' = e_allout e /\ e_hasasym e' = e_hasasym e /\ e_limit e' = e_limit e.

(** the line i of the element has the amplitude A times its nominal amplitude and the error S times it; NaN when it is outside of the
    range of the spectra *)
Definition line_scaled (e : elt) (A S : Q) (i : nat) : Prop :=
  exists o n, nth_error (e_out e) i = Some o /\ nth_error (e_nom e) i = Some n /\
    if o : bool then nth_error (e_amp e) i = Some None /\ nth_error (e_std e) i = Some None
    else exists x y, nth_error (e_amp e) i = Some (Some x) /\ nth_error (e_std e) i = Some (Some y) /\ x == A * n /\ y == S * n.
Definition scaled (e : elt) (A S : Q) : Prop :=
  length (e_amp e) = e_size e /\ length (e_std e) = e_size e /\ forall i, (i < e_size e)%nat -> line_scaled e A S i.
(** no absorption line of amplitude A times the nominal one is over the limit *)
Definition under_limit (e : elt) (A : Q) : Prop :=
  forall i n, nth_error (e_abs e) i = Some true -> nth_error (e_nom e) i = Some n -> A * n <= e_limit e.
(** equality of amplitudes *)
Definition num_eq (a b : option Q) : Prop :=
  match a, b with Some x, Some y => x == y | None, None => True | _, _ => False end.

Section History.
  Context {C : Type}.
  Variable v : env C.
  (** the continuum c is the one of candidate k: the k-th of the fit store, or the one that is already there *)
  Definition candidate (c0 : C) (k : nat) (c : C) : Prop :=
    match comp v with TplFit => if fromStore v then nth_error (store v) k = Some c else c = c0 | _ => c = c0 end.
  (** the fit a is made from the elements es: the lines have the nominal amplitudes of the ratio (or the ones they had, with the rules) *)
  Definition made (c0 : C) (es : list elt) (a : attempt C) : Prop :=
    candidate c0 (t_k a) (t_c a) /\ merit_of v (t_c a) (t_es a) = Ok (t_m a) /\
    match knd v with
    | TplRatio => exists es1, setTplratioModel v (t_c a) (Z.of_nat (t_r a)) es = Ok es1 /\ fitter v (t_c a) es1 = Ok (t_es a) /\
                              computelogLinePriorMerit (priors v) (t_r a) (t_es a) = Ok (t_p a)
    | Rules => exists es2, fitter v (t_c a) (setLyaProfile v (t_c a) undefIdx es) = Ok es2 /\ rules v es2 = Ok (t_es a)
    end.
  (** the fits are made one after the other, each one on the elements the one before left *)
  Fixpoint history (c0 : C) (es : list elt) (h : list (attempt C)) : Prop :=
    match h with [] => True | a :: t => made c0 es a /\ history c0 (t_es a) t end.
  (** the ratios which are fitted: all of them, or those without extinction (and the first one) when the extinction is not fitted *)
  Definition tried (r : nat) : bool :=
    match knd v with
    | Rules => true
    | TplRatio => negb (noIsm v && Nat.ltb 0 r && match nth_error (cat v) r with Some g => (0 <? g_ism g)%Z | None => false end)
    end.
  (** the fits of ratio r *)
  Definition of_ratio (r : nat) (h : list (attempt C)) : list (attempt C) := filter (fun a => Nat.eqb (t_r a) r) h.
  Definition with_prior (a : attempt C) : f64 := fadd (t_m a) (t_p a).
  Definition last_es (es : list elt) (h : list (attempt C)) : list elt := fold_left (fun _ a => t_es a) h es.
End History.

(** a line of the element in the range of the spectra has a positive nominal amplitude *)
Definition has_line (e : elt) : Prop := exists i n, nth_error (e_out e) i = Some false /\ nth_error (e_nom e) i = Some n /\ 0 < n.
(** no line in the range has a positive amplitude *)
Definition null_lines (e : elt) : Prop :=
  forall i x, nth_error (e_out e) i = Some false -> nth_error (e_amp e) i = Some (Some x) -> x <= 0.
(** the element e of the best fit and the element e' that the object holds after the fit *)
Definition restored (e e' : elt) : Prop :=
  same_lines e e' /\ e_nom e' = e_nom e /\
  (* an element of positive amplitude is found back, with its cross products and its profile *)
  (forall A S, 0 < A -> scaled e A S -> length (e_out e) = e_size e -> length (e_nom e) = e_size e -> e_allout e = false -> under_limit e A -> has_line e ->
     scaled e' A S /\ e_cross e' = e_cross e /\ e_gauss e' = e_gauss e /\
     (e_hasasym e = true -> e_asym e' = e_asym e /\ e_igm e' = e_igm e)) /\
  (* an element without a positive amplitude gets the amplitude 0 and no error, no cross product, no profile *)
  (null_lines e -> e_allout e = false ->
     (forall i, nth_error (e_out e) i = Some false -> (i < e_size e)%nat ->
        exists x, nth_error (e_amp e') i = Some (Some x) /\ x == 0) /\
     (forall i, (i < e_size e)%nat -> nth_error (e_std e') i = Some None) /\
     e_cross e' = None /\ e_gauss e' = None /\ (e_hasasym e = true -> e_asym e' = asym_nan /\ e_igm e' = undefIdx)).

(** the fitters change the amplitudes of the elements, not their lines nor their nominal amplitudes *)
Definition fitter_keeps {C} (v : env C) : Prop :=
  forall c es es', fitter v c es = Ok es' -> Forall2 (fun e e' => same_lines e e' /\ e_nom e' = e_nom e) es es'.
(** sum of the squares of (y - m) / e over the samples i, ..., i + n - 1 *)
Fixpoint chi2_from (y m e : list Q) (i n : nat) : Q :=
  match n with
  | O => 0
  | S k => chi2_from y m e i k + ((nth (i + k) y 0 - nth (i + k) m 0) / nth (i + k) e 0) * ((nth (i + k) y 0 - nth (i + k) m 0) / nth (i + k) e 0)
  end.
(** the same amplitudes, line by line *)
Definition same_amplitudes (es es' : list elt) : Prop := Forall2 (fun e e' => Forall2 num_eq (e_amp e) (e_amp e')) es es'.
