(** What is expected of the redshift probability densities. *)
From Verif Require Import Base RBase PdfModel.
Open Scope R_scope.

(** integral of the values [f] on the grid [z], trapezoid rule *)
Fixpoint trapz (z f : list R) : R :=
  match z, f with
  | x :: ((y :: _) as z'), a :: ((b :: _) as f') => (a + b) / 2 * (y - x) + trapz z' f'
  | _, _ => 0
  end.
(** likelihood x prior at each redshift: exp(-chi2/2 + logprior) *)
Fixpoint posterior (chi2 logprior : list R) : list R :=
  match chi2, logprior with
  | m :: ms, p :: ps => exp (- m / 2 + p) :: posterior ms ps
  | _, _ => []
  end.
(** a redshift grid: at least two samples, strictly increasing *)
Definition grid (z : list R) : Prop := (2 <= length z)%nat /\ Rstrictly_increasing z.
Fixpoint total (l : list R) : R := match l with [] => 0 | x :: t => x + total t end.
(** sum over models of weight x density at one sample *)
Fixpoint mix (w : list R) (f : list R) : R :=
  match w, f with a :: w', b :: f' => a * b + mix w' f' | _, _ => 0 end.

(** the model priors really used *)
Definition used_priors (c : chisq) : list R :=
  match cq_mpriors c with [] => repeat (1 / INR (length (cq_chi2 c))) (length (cq_chi2 c)) | l => l end.


(** well-formed input: a grid, at least one model, and one chi2 and one prior per sample for each model *)
Definition rows_ok (c : chisq) : Prop :=
  grid (cq_z c) /\ cq_chi2 c <> [] /\ length (cq_chi2 c) = length (cq_zpriors c) /\  Forall (fun m => length m = length (cq_z c)) (cq_chi2 c) /\ Forall (fun p => length p = length (cq_z c)) (cq_zpriors c).

(** what ComputePdf returns for each model *)
Inductive pdf_rows (lowest : R) (z : list R) (cst : R) : list (list R) -> list (list R) -> list (list R * R) -> Prop :=
| rows_nil : pdf_rows lowest z cst [] [] []
| rows_cons m ms p ps r rs : ComputePdf lowest m z cst p = Ok r -> pdf_rows lowest z cst ms ps rs ->
    pdf_rows lowest z cst (m :: ms) (p :: ps) (r :: rs).

(** densities of all models at one sample *)
Fixpoint column (k : nat) (pdfs : list (list R)) : list R :=
  match pdfs with [] => [] | p :: t => exp (nth k p 0) :: column k t end.

(** weights of the models: prior x evidence, normalised *)
Definition model_weights (pi evs : list R) : list R :=
  map (fun q => fst q * exp (snd q) / mix pi (map exp evs)) (combine pi evs).


(** model priors: none, or one positive prior per model with a sum close to 1 *)
Definition priors_ok (c : chisq) : Prop :=
  cq_mpriors c = [] \/ (length (cq_mpriors c) = length (cq_chi2 c) /\ Forall (fun x => 0 < x) (cq_mpriors c) /\     9 / 10 <= total (cq_mpriors c) <= 11 / 10).


(** distances between consecutive samples *)
Fixpoint steps (z : list R) : list R :=
  match z with x :: ((y :: _) as t) => (y - x) :: steps t | _ => [] end.
(** [m] is the least (greatest) element of [l] *)
Definition is_min (m : R) (l : list R) : Prop := In m l /\ forall x, In x l -> m <= x.
Definition is_max (m : R) (l : list R) : Prop := In m l /\ forall x, In x l -> x <= m.
(** value at sample [k] of each row *)
Fixpoint at_sample (k : nat) (rows : list (list R)) : list R :=
  match rows with [] => [] | p :: t => nth k p 0 :: at_sample k t end.

(** a prior: the raw log values when no normalisation is asked, otherwise the raw values shifted by a constant so that
    the prior integrates to 1 over the redshifts *)
Definition is_prior (normalize : bool) (z raw out : list R) : Prop :=
  if normalize then (exists C, out = map (fun x => x - C) raw) /\ trapz z (map exp out) = 1 else out = raw.
