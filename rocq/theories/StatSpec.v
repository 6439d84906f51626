(** Vocabulary for the statistics of the whole line model (C92).  Only the data types of the model are shared. *)
From Verif Require Import Base RangeModel StatModel.
Open Scope Q_scope.

(** sample j of an array *)
Definition at_ (l : list Q) (j : nat) : Q := nth j l 0.
(** sum of f over a list *)
Fixpoint total {A} (f : A -> Q) (l : list A) : Q := match l with [] => 0 | a :: t => f a + total f t end.
(** a usable spectrum: wavelengths strictly increasing, at least one, one value per wavelength in every array, no null error *)
Definition usable (o : spc) : Prop :=
  strictly_increasing (s_axis o) /\ (0 < length (s_axis o))%nat /\
  length (s_raw o) = length (s_axis o) /\ length (s_noc o) = length (s_axis o) /\ length (s_err o) = length (s_axis o) /\
  length (s_cont o) = length (s_axis o) /\ length (s_model o) = length (s_axis o) /\
  (forall e, In e (s_err o) -> ~ e == 0).
(** all the samples of the axis whose wavelength satisfies a test *)
Definition those (o : spc) (f : Q -> bool) : list nat := filter (fun j => f (at_ (s_axis o) j)) (seq 0 (length (s_axis o))).
(** the samples inside the range of the fit, bounds included *)
Definition inside_range (o : spc) : list nat :=
  those o (fun x => Qle_bool (rbeg (s_range o)) x && Qle_bool x (rend (s_range o))).
(** the samples begin <= x < end, except the last sample of the spectrum *)
Definition counted (o : spc) : list nat :=
  filter (fun j => Qle_bool (rbeg (s_range o)) (at_ (s_axis o) j) && Qltb (at_ (s_axis o) j) (rend (s_range o))
                   && (S j <? length (s_axis o))%nat) (seq 0 (length (s_axis o))).
(** those which are not under a line *)
Definition out_of_lines (o : spc) : list nat := filter (fun j => negb (existsb (Nat.eqb j) (s_sup o))) (counted o).
(** the supports of the lines are indexes of the spectrum *)
Definition sup_ok (o : spc) : Prop := forall j, In j (s_sup o) -> (j < length (s_axis o))%nat.
Definition sq (x : Q) : Q := x * x.
(** squared value in units of the error *)
Definition chi (o : spc) (v : nat -> Q) (j : nat) : Q := sq (v j) / sq (at_ (s_err o) j).
Definition over (os : list spc) (f : spc -> nat -> Q) : Q := total (fun o => total (f o) (counted o)) os.
Definition count_of (os : list spc) (f : spc -> list nat) : nat := fold_right (fun o n => length (f o) + n)%nat 0%nat os.
Definition ordered (r : range) : Prop := rbeg r <= rend r.

(** ** supports of the lines *)
(** index i is under support p *)
Definition under (p : support) (i : nat) : Prop := (p_beg p <= i <= p_end p)%nat.
Definition sup_wf (p : support) : Prop := (p_beg p <= p_end p)%nat.
(** p is included in q *)
Definition within (p q : support) : Prop := (p_beg q <= p_beg p)%nat /\ (p_end p <= p_end q)%nat.
(** no common index *)
Definition apart (p q : support) : Prop := forall i, ~ (under p i /\ under q i).
(** at most one common index, a bound of both *)
Definition nearly_apart (p q : support) : Prop := forall i, under p i -> under q i -> i = p_end p /\ i = p_beg q \/ i = p_beg p /\ i = p_end q.
Definition pairwise {A} (R : A -> A -> Prop) (l : list A) : Prop :=
  forall i j p q, (i < j)%nat -> nth_error l i = Some p -> nth_error l j = Some q -> R p q.
(** indexes under a support *)
Definition indexes (p : support) : list nat := seq (p_beg p) (S (p_end p) - p_beg p).
(** flux of the lines and variance under a support *)
Definition flux_under (o : spc) (p : support) : Q := Qabs (total (fun i => at_ (s_model o) i - at_ (s_cont o) i) (indexes p)).
Definition var_under (o : spc) (p : support) : Q := total (fun i => sq (at_ (s_err o) i)) (indexes p).
(** the supports of the lines which count *)
Definition emission_support (el : list selt) (p : support) : Prop :=
  exists e l, In e el /\ e_emission e = true /\ In l (e_lines e) /\ l_out l = false /\ l_sup l = p.
(** listed by their first index; of at least two samples *)
Definition by_start (l : list support) : Prop := pairwise (fun p q => (p_beg p <= p_beg q)%nat) l.
Definition wide (p : support) : Prop := (p_beg p < p_end p)%nat.

(** another range than the one of the kept values *)
Definition other_range (a b : range) : Prop := ~ rbeg a == rbeg b \/ ~ rend a == rend b.
