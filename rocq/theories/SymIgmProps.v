(** C63: the Gaussian profile with intergalactic extinction. *)
From Coquelicot Require Import Coquelicot.
From Verif Require Import Base RBase LProfModel SymIgmModel SymIgmProofs.
Open Scope R_scope.

(** ** the value is the Gaussian times the transmission at the rest wavelength, for the index set, or the fourth curve if none is set *)
Theorem C63_value : forall corr s z x x0 sigma t, s_has s = true -> s_z s = Some z -> corr (Some z) (if Z.eqb (s_idx s) (-1) then 3%Z else s_idx s) (Some (x / (1 + z))) = Ok t ->
  symigm_val corr s x x0 sigma = Ok (exp (- (1 / 2) * ((x - x0) / sigma) * ((x - x0) / sigma)) * t).
Proof. exact Val_ok. Qed.
Print Assumptions C63_value.
(** between zero and the Gaussian if the transmission is (C59) *)
Theorem C63_bounds : forall corr s z x x0 sigma t, s_has s = true -> s_z s = Some z -> corr (Some z) (GetIgmIdx s) (Some (x / (1 + z))) = Ok t -> 0 <= t <= 1 ->
  exists v, symigm_val corr s x x0 sigma = Ok v /\ 0 <= v <= sym_val x x0 sigma.
Proof. exact Val_bounds. Qed.
Print Assumptions C63_bounds.
(** ** the derivatives are those of the value; that with respect to the centre follows the line when the redshift moves, its rest wavelength x0/(1+z) being fixed *)
Theorem C63_deriv_sigma : forall corr s z x x0 sigma t, sigma <> 0 -> s_has s = true -> s_z s = Some z -> corr (Some z) (GetIgmIdx s) (Some (x / (1 + z))) = Ok t ->
  exists v : R -> R, exists d, (forall u : R, symigm_val corr s x x0 u = Ok (v u)) /\ symigm_deriv_sigma corr s x x0 sigma = Ok d /\ is_derive v sigma d.
Proof. exact DSigma_ok. Qed.
Print Assumptions C63_deriv_sigma.
Theorem C63_deriv_x0 : forall corrd s z x x0 sigma (T T' : R -> R), sigma <> 0 -> 0 < x0 -> 0 < 1 + z -> s_has s = true -> s_z s = Some z -> (forall l : R, is_derive T l (T' l)) ->
  corrd (Some z) (GetIgmIdx s) (Some (x / (1 + z))) = Ok (T (x / (1 + z)), T' (x / (1 + z))) ->
  exists d, symigm_deriv_x0 corrd s x x0 sigma = Ok (Some d) /\ is_derive (fun y : R => sym_val x y sigma * T (x * (x0 / (1 + z)) / y)) x0 d.
Proof. exact DX0_ok. Qed.
Print Assumptions C63_deriv_x0.
(** ** the flux: that of the Gaussian if the whole window (four sigmas on each side) is above Lyman alpha *)
Theorem C63_flux_above_lya : forall corr waves s z x0 sigma A, s_has s = true -> 0 < 1 + z -> 1216 * (1 + z) < x0 - 4 * sigma -> symigm_flux corr waves s z x0 sigma A = Ok (A * sigma * sqrt (2 * PI)).
Proof. exact Flux_red. Qed.
Print Assumptions C63_flux_above_lya.
(** otherwise it is not the integral of the profile over the observed wavelengths of the window: 1 + z times the flux is the integral of the profile times the transmission, once more *)
Theorem C63_flux_refuted : forall corr waves s z x0 sigma A F, s_has s = true -> 0 < 1 + z -> x0 - 4 * sigma <= 1216 * (1 + z) -> symigm_flux corr waves s z x0 sigma A = Ok F ->
  exists xr cs vs, waves (Some ((x0 - 4 * sigma) / (1 + z), (x0 + 4 * sigma) / (1 + z))) (Some z) (GetIgmIdx s) = Ok (xr, cs) /\ (2 <= length xr)%nat /\
    Forall2 (fun x v => symigm_val corr s (x * (1 + z)) x0 sigma = Ok v) xr vs /\ (1 + z) * F = A * trapz (map (fun x => x * (1 + z)) xr) (map (fun q => fst q * snd q) (combine vs cs)).
Proof. exact Flux_ok. Qed.
Print Assumptions C63_flux_refuted.
(** so for a constant transmission c the flux is c/(1+z) times the integral of the values of the profile itself *)
Theorem C63_flux_constant_refuted : forall corr waves s z x0 sigma A F c, s_has s = true -> 0 < 1 + z -> x0 - 4 * sigma <= 1216 * (1 + z) ->
  (forall r zz i xr cs, waves r zz i = Ok (xr, cs) -> length cs = length xr /\ Forall (fun y => y = c) cs) -> symigm_flux corr waves s z x0 sigma A = Ok F ->
  exists xr vs, Forall2 (fun x v => symigm_val corr s (x * (1 + z)) x0 sigma = Ok v) xr vs /\ (2 <= length xr)%nat /\ (1 + z) * F = c * (A * trapz (map (fun x => x * (1 + z)) xr) vs).
Proof. exact Flux_constant. Qed.
Print Assumptions C63_flux_constant_refuted.
(** ** without the extinction object every value is refused; but the number of curves dereferences null *)
Theorem C63_no_igm : forall corr corrd waves s, s_has s = false -> (forall x x0 sigma, symigm_val corr s x x0 sigma = Throw INTERNAL_ERROR /\ symigm_deriv_x0 corrd s x x0 sigma = Throw INTERNAL_ERROR /\ symigm_deriv_sigma corr s x x0 sigma = Throw INTERNAL_ERROR) /\
  (forall z x0 sigma A, symigm_flux corr waves s z x0 sigma A = Throw INTERNAL_ERROR).
Proof. intros corr corrd waves s H. destruct (Throws corr corrd waves 0%Z s H) as (A & B & _). exact (conj A B). Qed.
Print Assumptions C63_no_igm.
Theorem C63_count_refuted : forall count s, s_has s = false -> getIGMIdxCount count s = UB.
Proof. intros count s H. unfold getIGMIdxCount. rewrite H. reflexivity. Qed.
Print Assumptions C63_count_refuted.
(** ** the parameters are the last ones set, unless they were reset since while being fitted *)
Theorem C63_parameters : forall has cs, let s := fold_left pstep cs (NewSymIgm has) in s_has s = has /\
  GetSymIgmParams s = fst (fold_left (fun st c => match c with PSet p => (p, snd st) | PFit b => (fst st, b) | PReset => ((if snd st then ((-1)%Z, None) else fst st), snd st) end) cs (((-1)%Z, None), false)).
Proof. exact Params_history. Qed.
Print Assumptions C63_parameters.

(** ** the hypotheses are met: a constant transmission of one half on a grid of three wavelengths *)
Definition ex_corr (z : option R) (i : Z) (l : option R) : res R := Ok (1 / 2).
Definition ex_waves (r : option (R * R)) (z : option R) (i : Z) : res (list R * list R) := Ok ([1199; 1200; 1201], [1 / 2; 1 / 2; 1 / 2]).
Definition ex_s : sprof := fold_left pstep [PSet (2%Z, Some 2)] (NewSymIgm true).
Example c63_flux : exists F, symigm_flux ex_corr ex_waves ex_s 2 3600 1 5 = Ok F.
Proof.
  unfold symigm_flux, check. cbn [ex_s fold_left pstep SetSymIgmParams s_has NewSymIgm]. cbv zeta. destruct (Rltb_spec rest_lya (3600 / (1 + 2) - 1 / (1 + 2) * nsigma_support / 2)) as [N|_].
  - eexists. reflexivity.
  - unfold ex_waves. cbn. eexists. reflexivity.
Qed.
Example c63_below : 3600 - 4 * 1 <= 1216 * (1 + 2). Proof. lra. Qed.
Example c63_above : 1216 * (1 + 2) < 4000 - 4 * 1. Proof. lra. Qed.
Example c63_const : forall r zz i xr cs, ex_waves r zz i = Ok (xr, cs) -> length cs = length xr /\ Forall (fun y => y = 1 / 2) cs.
Proof. unfold ex_waves. intros r zz i xr cs H. injection H as <- <-. split; [reflexivity|]. repeat constructor. Qed.
Example c63_deriv : forall l : R, is_derive (fun l : R => l / 2) l (1 / 2). Proof. intro l. auto_derive; [auto|]. field. Qed.
