(** Vocabulary for C76. *)
From Coq Require Import String Reals Qreals.
From Verif Require Import Base F64 RangeModel TplModel TplSpec TFitModel TFitSpec PhotModel.
Open Scope Q_scope.

Definition positive_lam (lam : list Q) : Prop := forall l, In l lam -> 0 < l.
(** the integral over the frequency of h(i), i the sample, by trapezes *)
Definition width (lam : list Q) (i : nat) : Q := light / nth i lam 0 - light / nth (S i) lam 0.
Definition quad (lam : list Q) (h : nat -> Q) : Q := sum (map (fun i => (h i + h (S i)) / 2 * width lam i) (seq 0 (List.length lam - 1))).
(** the flux per unit of frequency *)
Definition f_nu (flux lam : list Q) (i : nat) : Q := nth i flux 0 * nth i lam 0 * nth i lam 0 / light.
(** the value associated to a name *)
Definition bound {A} (m : smap A) (n : string) (a : A) : Prop := In (n, a) m.
(** the photometric point of a band as a sample (flux, integrated template, error): a weight w divides the error *)
Definition point (cat : catalog) (tpls : smap tpl) (data : smap pdat) (w : Q) (n : string) (s : Q * Q * Q) : Prop :=
  exists b t d f, bound cat n b /\ bound tpls n t /\ bound data n d /\ IntegrateFlux b (t_flux t) = Ok (Fin f) /\ ~ p_err d == 0 /\ s = (p_flux d, f, p_err d / w).
(** the last value given to a name *)
Fixpoint last_of {A} (l : list (string * A)) (n : string) : option A :=
  match l with [] => None | (k, v) :: t => match last_of t n with Some x => Some x | None => if String.eqb k n then Some v else None end end.
Fixpoint first_of {A} (l : list (string * A)) (n : string) : option A :=
  match l with [] => None | (k, v) :: t => if String.eqb k n then Some v else first_of t n end.
(** the logarithm of the normalisation of independent gaussian deviations *)
Fixpoint gauss_norm (sigmas : list R) : R := match sigmas with [] => 0%R | s :: t => (ln (/ (s * sqrt (2 * PI))) + gauss_norm t)%R end.
Definition inside (r : range) (x : Q) : bool := (Qle_bool (rbeg r) x && Qle_bool x (rend r))%bool.
(** the errors of the samples of the range *)
Definition errors_in (axis err : list Q) (r : range) : list R := map (fun p => Q2R (snd p)) (filter (fun p => inside r (fst p)) (combine axis err)).
(** [c] holds the sums of the samples (flux, model, error): flux times model, squared model, squared flux, all over the squared error *)
Definition sums (l : list (Q * Q * Q)) (c : cross) : Prop :=
  c_x c == sum (map (fun s => let '(y, t, e) := s in (y / e) * (t / e)) l) /\
  c_t c == sum (map (fun s => let '(_, t, e) := s in (t / e) * (t / e)) l) /\
  c_s c == sum (map (fun s => let '(y, _, e) := s in (y / e) * (y / e)) l).
(** the integrated templates of a band are equal *)
Definition same_band (tpls tpls' : smap tpl) (n : string) : Prop :=
  forall t t', bound tpls n t -> bound tpls' n t' -> Forall2 Qeq (t_flux t) (t_flux t').
(** a map built by insertions *)
Definition ordered {A} (m : smap A) : Prop := StronglySorted (fun a b => String.ltb a b = true) (keys m).
(** the template of a band: rebinned on the wavelengths of the band at rest, then initialised for the igm *)
Definition initialised (z : Q) (cal : option CalzModel.calz) (mei : MeikModel.meik) (b : band) (t : tpl) : Prop :=
  exists fl t0, NewTpl (map (fun l => l / (1 + z)) (b_lam b)) fl = Ok t0 /\ InitIsmIgmConfig_all t0 z cal (Some mei) = (t, Ok tt).
(** two programs of calls on a template that differ by the igm index asked for only *)
Definition same_but_igm (cs cs' : list call) : Prop :=
  v_on (seen cs) = v_on (seen cs') /\ v_ks (seen cs) = v_ks (seen cs') /\ v_ke (seen cs) = v_ke (seen cs') /\ v_cal (seen cs) = v_cal (seen cs') /\ v_dust (seen cs) = v_dust (seen cs') /\ v_amp (seen cs) = v_amp (seen cs').
(** the points given to the constructor of the data *)
Definition triples (names : list string) (flux err : list Q) : list (string * pdat) := combine names (map (fun p => mkDat (fst p) (snd p)) (combine flux err)).
(** a spectrum with increasing wavelengths and positive errors, and the range fitted *)
Definition good_spectrum (p : list Q * list Q * range) : Prop := let '(axis, err, r) := p in strictly_increasing axis /\ List.length axis = List.length err /\ (forall e, In e err -> 0 < e).
