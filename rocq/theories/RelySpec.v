(** What C99 is about, in terms of lists of real numbers and of numbers written in decimal. *)
From Coq Require Import String Reals Lra.
From Verif Require Import Base RdrModel RelyModel.
Open Scope string_scope.
Open Scope R_scope.

(** the largest redshift is at most one millionth above the one the model was trained with, and the (logarithmic) step is not below the one of the training by more than a millionth *)
Definition fits (zgrid : list R) (par : net_params) := exists l a b, zgrid = (l ++ [a; b])%list /\
  1000000 * (b - zgrid_end par) <= b /\ 1000000 * (exp (zrange_step par) * (a + 1) - (b + 1)) <= b + 1.
(** redshifts: the last one positive and the one before it above -1 *)
Definition redshifts (zgrid : list R) := exists l a b, zgrid = (l ++ [a; b])%list /\ -1 < a /\ 0 < b.
(** [c] is a class, not the first one, and [x] is its probability *)
Definition probability_of (classes : list string) (probas : list R) (c : string) (x : R) :=
  exists i, (1 <= i)%nat /\ nth_error classes i = Some c /\ nth_error probas i = Some x.
Definition digit (n : nat) : string := nth n ["0";"1";"2";"3";"4";"5";"6";"7";"8";"9"] "".

(** the table has the same number [n] of rows in all its columns *)
Definition rectangular (cols : dict (list R)) (n : nat) := cols <> [] /\ forall k c, dget k cols = Some c -> List.length c = n.
Definition entry (cols : dict (list R)) (k : string) (i : nat) (x : R) := exists c, dget k cols = Some c /\ nth_error c i = Some x.
Definition grid_at (first_pass : bool) (cols : dict (list R)) (i : nat) (p : grid_param) :=
  if first_pass then entry cols "FPZmin" i (g_min p) /\ entry cols "FPZmax" i (g_max p) /\ entry cols "FPZstep" i (g_step p) /\ g_center p = None
  else entry cols "zmin" i (g_min p) /\ entry cols "zmax" i (g_max p) /\ entry cols "zstep" i (g_step p) /\ exists c, g_center p = Some c /\ entry cols "zcenter" i c.
Definition columns (first_pass : bool) : list string := if first_pass then ["FPZmin"; "FPZmax"; "FPZstep"] else ["zmin"; "zmax"; "zstep"; "zcenter"].
