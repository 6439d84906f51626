(** Vocabulary for C60. *)
From Verif Require Import Base RangeModel CalzModel MeikModel TplModel.
Open Scope Q_scope.

(** what a caller knows of a template from the calls that were made: whether extinction is enabled, the samples and the redshift it was initialised for, the tables,
    the last dust and igm indices asked for since, and the product of the amplitudes *)
Record view := mkView { v_on : bool; v_ks : Z; v_ke : Z; v_z : Q; v_cal : option calz; v_mei : option meik; v_dust : Z; v_igm : Z; v_amp : Q }.
Definition view0 : view := mkView false 0 0 0 None None (-1) (-1) 1.
Definition other {A} (x y : option A) := match x with None => y | _ => x end.
Definition see (v : view) (c : call) : view :=
  match c with
  | Init ks ke z cal mei => mkView true ks ke z (other cal (v_cal v)) (other mei (v_mei v)) (-1) (-1) (v_amp v)
  | Dust k => mkView (v_on v) (v_ks v) (v_ke v) (v_z v) (v_cal v) (v_mei v) k (v_igm v) (v_amp v)
  | Igm k => mkView (v_on v) (v_ks v) (v_ke v) (v_z v) (v_cal v) (v_mei v) (v_dust v) k (v_amp v)
  | Amp a => mkView (v_on v) (v_ks v) (v_ke v) (v_z v) (v_cal v) (v_mei v) (v_dust v) (v_igm v) (v_amp v * a)
  | Disable => mkView false (v_ks v) (v_ke v) (v_z v) (v_cal v) (v_mei v) (v_dust v) (v_igm v) (v_amp v)
  end.
Definition seen (cs : list call) : view := fold_left see cs view0.

(** the sample is one of those the extinction was initialised for *)
Definition in_range (v : view) (k : nat) : Prop := v_on v = true /\ (v_ks v <= Z.of_nat k <= v_ke v)%Z.
(** the dust extinction of sample k at wavelength lam: that of the table (C57) for the index asked for; none outside the range or for a negative index *)
Definition dust_of (v : view) (k : nat) (lam d : Q) : Prop :=
  (in_range v k /\ (0 <= v_dust v)%Z /\ exists cal, v_cal v = Some cal /\ GetDustCoeff cal (v_dust v) lam = Ok d) \/
  ((~ in_range v k \/ (v_dust v < 0)%Z) /\ d = 1).
(** the igm extinction: that of the table (C59) for the redshift and the index asked for *)
Definition igm_of (v : view) (k : nat) (lam m : Q) : Prop :=
  (in_range v k /\ (0 <= v_igm v)%Z /\ exists mei, v_mei v = Some mei /\ getCorrection mei (v_z v) (v_igm v) lam = Ok m) \/
  ((~ in_range v k \/ (v_igm v < 0)%Z) /\ m = 1).
(** the tables given are convolved *)
Definition convolved (c : call) : Prop := match c with Init _ _ _ _ (Some m) => (1 <= mk_fine m)%Z | _ => True end.
