(** Vocabulary for C67. *)
From Verif Require Import Base RangeModel AxisModel ElemModel ElemSpec EfitModel EfitSpec AmpModel.
Open Scope Q_scope.

Section Spec.
  Variable prof : nat -> Q -> Q -> Q -> Q.
  (** an observation on which the supports of the lines have been prepared (at some redshift zs), with errors which are not null and a line spread
      function known at the centre of the used lines *)
  Definition good_obs (ls : list eline) (z : Q) (o : aobs) : Prop :=
    strictly_increasing (a_axis o) /\ (0 < length (a_axis o))%nat /\
    length (a_y o) = length (a_axis o) /\ length (a_e o) = length (a_axis o) /\ length (a_c o) = length (a_axis o) /\
    (forall t e, nth_error (a_e o) t = Some e -> ~ e == 0) /\
    (exists zs r mo ls0, length ls0 = length ls /\ prepared_for (a_avail o) (a_width o) (a_axis o) zs r mo ls0 (a_s o)) /\
    lsf_known_all (a_avail o) (a_s o) ls z.
  (** no sample is in the supports of two groups *)
  Definition unshared (s : support) : Prop :=
    forall k k' t, used s k -> used s k' -> reach s k t -> reach s k' t -> linked (used s) (s_theo s) k k'.
  (** [g k] is what line k, with its nominal amplitude, adds to sample t *)
  Definition nominal_at (o : aobs) (ls : list eline) (li : option nat) (z x c : Q) (t : nat) (g : nat -> Q) : Prop :=
    forall k l, nth_error ls k = Some l ->
      (used (a_s o) k /\ of_interest (a_s o) li k /\ reach (a_s o) k t -> g k == line_value (a_width o) prof k l z x c (el_nom l)) /\
      (~ (used (a_s o) k /\ of_interest (a_s o) li k /\ reach (a_s o) k t) -> g k == 0).
  (** [cov] tells the fitted samples, [m] is the model of amplitude one on them *)
  Record view := mkView { v_obs : aobs; v_cov : nat -> bool; v_model : nat -> Q }.
  Definition is_view (ls : list eline) (li : option nat) (z : Q) (o : aobs) (v : view) : Prop :=
    v_obs v = o /\ forall t x c, nth_error (a_axis o) t = Some x -> nth_error (a_c o) t = Some c ->
      (v_cov v t = true <-> covered (a_s o) li t) /\ exists g, nominal_at o ls li z x c t g /\ v_model v t == sumn g (length ls).
End Spec.

(** the chi square of the amplitude a over the fitted samples of the observations *)
Definition at0 (l : list Q) (t : nat) : Q := nth t l 0.
Definition view_sum (f : Q -> Q -> Q -> Q) (v : view) : Q :=
  sumn (fun t => if v_cov v t then f (at0 (a_y (v_obs v)) t) (v_model v t) (at0 (a_e (v_obs v)) t) else 0) (length (a_axis (v_obs v))).
Fixpoint views_sum (f : Q -> Q -> Q -> Q) (vs : list view) : Q := match vs with [] => 0 | v :: t => view_sum f v + views_sum f t end.
Definition amp_chi2 (vs : list view) (a : Q) : Q := views_sum (fun y m e => ((y - a * m) / e) * ((y - a * m) / e)) vs.
Definition amp_info (vs : list view) : Q := views_sum (fun y m e => (m / e) * (m / e)) vs.

(** the amplitude of the element is A: each line has A times its nominal amplitude, at most the limit for an absorption line; the lines out of all the spectra have none *)
Definition amplitude_set (absLimit : Q) (os : list aobs) (A : Q) (ls ls' : list eline) : Prop :=
  length ls' = length ls /\
  forall k l l', nth_error ls k = Some l -> nth_error ls' k = Some l' ->
    el_s l' = el_s l /\ el_neg l' = el_neg l /\ el_nom l' = el_nom l /\
    ((forall o, In o os -> s_out (a_s o) k = true) -> el_fit l' = None) /\
    ((exists o, In o os /\ s_out (a_s o) k = false) -> exists f, el_fit l' = Some f /\
       ((el_neg l = true /\ 0 < absLimit /\ absLimit < A * el_nom l /\ f == absLimit) \/
        (~ (el_neg l = true /\ 0 < absLimit /\ absLimit < A * el_nom l) /\ f == A * el_nom l))).
(** the same lines without amplitudes *)
Definition amplitude_unset (ls ls' : list eline) : Prop :=
  length ls' = length ls /\ forall k l l', nth_error ls k = Some l -> nth_error ls' k = Some l' ->
    el_s l' = el_s l /\ el_neg l' = el_neg l /\ el_nom l' = el_nom l /\ el_fit l' = None.
