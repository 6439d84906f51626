(** Specification vocabulary for C79. *)
From Coq Require Import String Reals.
From Verif Require Import Base RBase PdfModel LmrModel LmrSpec ChiArrModel.
Open Scope Q_scope.

Section Rest.
Variable rest : nat -> option rline.

(** the catalog knows every line of the solution *)
Definition known (l : list lsol) : Prop := forall a, In a l -> rest (l_id a) <> None.

(** x / y >= t, where x / 0 is infinite with the sign of x, and 0 / 0 is nothing *)
Definition ratio_at_least (a b : flt) (t : Q) : Prop :=
  exists x y, a = Some x /\ b = Some y /\ ((~ y == 0 /\ t <= x / y) \/ (y == 0 /\ 0 < x)).
(** a strong emission line above both thresholds, with a positive uncertainty *)
Definition above_cut (snr fit : Q) (a : lsol) : Prop :=
  exists k, rest (l_id a) = Some k /\ k_strong k = true /\ k_em k = true /\
    (exists n, l_noise a = Some n /\ 0 < n) /\ ratio_at_least (l_amp a) (l_noise a) snr /\ ratio_at_least (l_amp a) (l_rms a) fit.

(** filter 1: emission lines only, 2: absorption lines only, otherwise all lines *)
Definition wanted (filter : Z) (em : bool) : Prop := (filter = 1%Z -> em = true) /\ (filter = 2%Z -> em = false).
(** a strong line inside the lambda range, with a positive amplitude *)
Definition has_strong (filter : Z) (l : list lsol) : Prop :=
  exists a k x, In a l /\ rest (l_id a) = Some k /\ k_strong k = true /\ wanted filter (k_em k) /\ l_out a = false /\
    l_amp a = Some x /\ 0 < x.

(** an emission line inside the lambda range *)
Definition emitted (a : lsol) (k : rline) (x : Q) : Prop :=
  rest (l_id a) = Some k /\ k_em k = true /\ l_out a = false /\ l_amp a = Some x.
(** the strongest such line (the first of them when several are equal) is H-alpha, with a positive amplitude *)
Definition ha_strongest (l : list lsol) : Prop :=
  exists j a k x, nth_error l j = Some a /\ emitted a k x /\ k_name k = halpha_em /\ 0 < x /\
    forall j' a' k' x', nth_error l j' = Some a' -> emitted a' k' x' -> x' <= x /\ ((j' < j)%nat -> x' < x).

(** the flags used by the priors: those of the template ratio, or computed from the lines *)
Definition strong_flag (kr : option nat) (w : row) (b : bool) : Prop :=
  match kr with Some k => nth_error (w_strong w) k = Some b | None => b = true <-> has_strong 1 (w_sol w) end.
Definition ha_flag (kr : option nat) (w : row) (b : bool) : Prop :=
  match kr with Some k => nth_error (w_ha w) k = Some b | None => b = true <-> ha_strongest (w_sol w) end.

(** the log prior of one redshift: each enabled prior is a penalty for the redshifts without the feature; [e] is the
    number-of-H-alpha log prior there (C49) *)
Definition penalty (p : R) (b : bool) : R := if Rlt_dec 0 p then (if b then 0 else ln p)%R else 0%R.
Definition prior_value (o : zopts) (kr : option nat) (w : row) (e p : R) : Prop :=
  exists bs bh, strong_flag kr w bs /\ ha_flag kr w bh /\
    p = (penalty (zo_strong o) bs + penalty (zo_ha o) bh + if Rlt_dec 0 (zo_nha o) then e else 0)%R.
(** the k-th template ratio exists, or the catalog knows all the lines *)
Definition usable (r : lmres) (nR : nat) (kr : option nat) : Prop :=
  match kr with Some k => (k < nR)%nat | None => forall s, In s (r_sol r) -> known s end.
End Rest.

(** the merit of a row for the k-th model: the merit of the fit, or that of the template ratio with its line prior *)
Definition base_merit (kr : option nat) (w : row) (v : flt) : Prop :=
  match kr with
  | None => v = w_chi2 w
  | Some k => exists c p, nth_error (w_rchi2 w) k = Some c /\ nth_error (w_pl w) k = Some p /\
      match c, p with Some x, Some y => v = Some (x + y) | _, _ => v = None end
  end.
(** the merit with the continuum [c] in place of the best continuum [c0] *)
Definition with_continuum (b c c0 v : flt) : Prop :=
  match b with
  | None => v = None
  | Some x => exists y, v = Some y /\
      match c, c0 with
      | Some p, Some q => (q <= p -> y == x + (p - q)) /\ (p <= q -> y == x)
      | _, _ => y == x
      end
  end.
(** where the k-th of K models is with the c-th of n continua *)
Definition position (K n k c : nat) : nat := match c with O => k | S c' => (K + k * (n - 1) + c')%nat end.

Definition models (tplRatio : bool) (nR : nat) : list (option nat) := if tplRatio then map Some (seq 0 nR) else [None].
(** sum of the prior probabilities of the models *)
Fixpoint total (l : list Q) : Q := match l with [] => 0 | x :: t => x + total t end.
(** number of continua of the array: one without template continuum *)
Definition ncont (nT : nat) : nat := Nat.max 1 nT.
