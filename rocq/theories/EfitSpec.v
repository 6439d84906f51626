(** Vocabulary for C66 and C67. *)
From Verif Require Import Base RangeModel AxisModel ElemModel ElemSpec EfitModel.
Open Scope Q_scope.

(** f 0 + ... + f (n - 1) *)
Fixpoint sumn (f : nat -> Q) (n : nat) : Q := match n with O => 0 | S k => sumn f k + f k end.

Section Spec.
  Variable width : Q -> Q.
  Variable prof : nat -> Q -> Q -> Q -> Q.

  (** the observed wavelength of a line *)
  Definition line_center (l : eline) (z : Q) : Q := l_pos (el_s l) * (1 + z) * (1 + l_off (el_s l) / speed_of_light).
  Definition profile_at (k : nat) (l : eline) (z x : Q) : Q := prof k x (line_center l z) (width (line_center l z)).
  (** a line of amplitude A adds A times its profile, or removes it from the continuum c when it is an absorption line *)
  Definition line_value (k : nat) (l : eline) (z x c A : Q) : Q := (if el_neg l then - c else 1) * A * profile_at k l z x.
  (** a line is shown when it has an amplitude, not negative *)
  Definition shown (l : eline) (A : Q) : Prop := el_fit l = Some A /\ 0 <= A.
  (** what line k adds at wavelength x *)
  Definition adds (k : nat) (l : eline) (z x c v : Q) : Prop :=
    (exists A, shown l A /\ v == line_value k l z x c A) \/ ((forall A, ~ shown l A) /\ v == 0).

  (** the sample t is in the support of line k or of a line linked to k *)
  Definition reach (s : support) (k : nat) (t : nat) : Prop :=
    exists m, linked (used s) (s_theo s) k m /\ in_support (Z.of_nat t) (s_theo s m).
  (** the lines of interest: all of them, or those linked to one of them *)
  Definition of_interest (s : support) (line_index : option nat) (k : nat) : Prop :=
    match line_index with None => True | Some j => linked (used s) (s_theo s) j k end.
  (** [g k] is what line k adds to the sample t: nothing when it is not used or when t is not in the support of its group *)
  Definition lines_at (s : support) (ls : list eline) (line_index : option nat) (z x c : Q) (t : nat) (g : nat -> Q) : Prop :=
    forall k l, nth_error ls k = Some l ->
      (used s k /\ of_interest s line_index k /\ reach s k t -> adds k l z x c (g k)) /\
      (~ (used s k /\ of_interest s line_index k /\ reach s k t) -> g k == 0).
  (** the sample t is in the support of a group of interest *)
  Definition covered (s : support) (line_index : option nat) (t : nat) : Prop := exists k, used s k /\ of_interest s line_index k /\ reach s k t.
End Spec.

(** the line spread function is known at the centre of the lines shown *)
Definition lsf_known (avail : Q -> bool) (s : support) (ls : list eline) (z : Q) : Prop :=
  forall k l A, nth_error ls k = Some l -> used s k -> shown l A -> avail (line_center l z) = true.

(** [s] are the supports of the lines [ls] at redshift z *)
Definition prepared_for (avail : Q -> bool) (width : Q -> Q) (axis : list Q) (z : Q) (r : range) (mo : Q) (ls : list eline) (s : support) : Prop :=
  prepareSupport avail width (map el_s ls) axis z r mo = Ok s /\ (Z.of_nat (length ls) < 2 ^ 21)%Z.

(** ** the model spectrum of a list of elements *)
Section Spectrum.
  Variable avail : Q -> bool.
  Variable width : Q -> Q.
  Variable prof : nat -> Q -> Q -> Q -> Q.
  (** the elements have supports prepared on the axis at redshift z, and the line spread function is known at the centre of the lines shown *)
  Definition good_element (axis : list Q) (z : Q) (r : range) (mo : Q) (e : element) : Prop :=
    prepared_for avail width axis z r mo (x_ls e) (x_s e) /\ lsf_known avail (x_s e) (x_ls e) z.
  (** the sum of what the lines of the elements add: gs gives for each element what each line adds *)
  Fixpoint all_lines (es : list element) (gs : list (nat -> Q)) : Q :=
    match es, gs with e :: es', g :: gs' => sumn g (length (x_ls e)) + all_lines es' gs' | _, _ => 0 end.
  (** v is the model at sample t, of wavelength x and continuum c: the continuum and the lines of the elements *)
  Definition is_model_at (es : list element) (z x c : Q) (t : nat) (v : Q) : Prop :=
    exists gs, Forall2 (fun e g => lines_at width prof (x_s e) (x_ls e) None z x c t g) es gs /\ v == c + all_lines es gs.
  Definition covered_by (es : list element) (t : nat) : Prop := exists e, In e es /\ covered (x_s e) None t.
End Spectrum.

(** ** the other observables of an element *)
Section Observables.
  Variable width : Q -> Q.
  Variable prof : nat -> Q -> Q -> Q -> Q.
  (** what the used lines add at a wavelength, whatever their supports *)
  Definition all_used_lines (s : support) (ls : list eline) (z x c : Q) (g : nat -> Q) : Prop :=
    forall k l, nth_error ls k = Some l -> (used s k -> adds width prof k l z x c (g k)) /\ (~ used s k -> g k == 0).
  (** the fitted amplitudes of the used lines are A times their nominal amplitudes *)
  Definition of_amplitude (s : support) (ls : list eline) (A : Q) : Prop :=
    forall k l, nth_error ls k = Some l -> used s k -> exists f, el_fit l = Some f /\ f == A * el_nom l.
End Observables.
(** the line spread function is known at the centre of all the used lines *)
Definition lsf_known_all (avail : Q -> bool) (s : support) (ls : list eline) (z : Q) : Prop :=
  forall k l, nth_error ls k = Some l -> used s k -> avail (line_center l z) = true.
(** the elements of the type asked: all, or those of emission, or those of absorption *)
Definition of_type (type : option bool) (es : list element) : list element :=
  match type with
  | None => es
  | Some true => List.filter (fun e => x_em e) es
  | Some false => List.filter (fun e => negb (x_em e)) es
  end.
