(** Vocabulary for C62. *)
From Verif Require Import Base F64 RangeModel AxisModel FluxSpec ValModel.
Open Scope Q_scope.

(** sample i of the spectrum has its wavelength in [lo, hi[ *)
Definition sample_in (s : vspc) (lo hi : Q) (i : nat) : Prop := exists x, nth_error (v_axis s) i = Some x /\ lo <= x < hi.
(** every sample of [lo, hi[ has a finite flux and a usable noise, one of them a flux which is not null *)
Definition sane_between (s : vspc) (lo hi : Q) : Prop :=
  (forall i, sample_in s lo hi i -> valid_at (v_flux s) (v_noise s) i) /\
  exists i q, sample_in s lo hi i /\ nth_error (v_flux s) i = Some (Fin q) /\ ~ q == 0.
Definition lsf_covers (s : vspc) (x : Q) : Prop := match v_lsf s with None => True | Some av => av x = true end.
(** a spectrum as a reader builds it: as many fluxes and errors as wavelengths, the wavelengths increasing *)
Definition well_formed (s : vspc) : Prop :=
  (2 <= length (v_axis s))%nat /\ strictly_increasing (v_axis s) /\ length (v_flux s) = length (v_axis s) /\ length (v_noise s) = length (v_axis s).
(** the wavelengths common to the spectrum and to the range asked for *)
Definition common (s : vspc) (r : range) (lo hi : Q) : Prop :=
  exists f b, nth_error (v_axis s) 0 = Some f /\ nth_error (v_axis s) (length (v_axis s) - 1) = Some b /\ lo = Qmaxb (rbeg r) f /\ hi = Qminb (rend r) b.
