(** Vocabulary of C88, independent of the loops of the code. *)
From Verif Require Import Base F64 RatSpec VfitModel.
Open Scope Q_scope.

(** i is the first sample of the grid equal to z *)
Definition first_at (zs : list Q) (z : Q) (i : nat) : Prop :=
  (exists x, nth_error zs i = Some x /\ x == z) /\ forall j y, (j < i)%nat -> nth_error zs j = Some y -> ~ y == z.
(** the samples of the grid of index between ib and ie and at most six samples away from Zidx *)
Definition near_samples (zs : list Q) (ib ie Zidx : nat) : list Q :=
  map (fun k => nth k zs 0)
    (filter (fun k => Nat.leb ib k && Nat.leb k ie && Nat.leb Zidx (k + 6) && Nat.leb k (Zidx + 6))%bool (seq 0 (length zs))).
(** the pairs (redshift, velocity), redshift after redshift *)
Definition tests (zs vs : list Q) : list (Q * Q) := flat_map (fun z => map (fun v => (z, v)) vs) zs.
(** the setup of the fits of the velocities: made with the hybrid fitter, or with the individual one and the flag of the first pass *)
Definition vel_setup (c : config) (cont : injected) (noism : bool) (n : nat) : setup :=
  if k_tplratio c then mkS Individual (k_noism1 c) cont n else mkS Hybrid noism cont n.
(** the fit of an absorption velocity v, with the emission velocity ve, and conversely *)
Definition abs_run (u : setup) (ve : option Q) (p : Q * Q) : run := mkRun u (fst p) (Some (snd p)) ve.
Definition em_run (u : setup) (va : option Q) (p : Q * Q) : run := mkRun u (fst p) va (Some (snd p)).
(** one scan: from the velocity v0 of the model, the velocity x0 of the candidate and the chi-square c0 of its redshift, to v1, x1 and c1 *)
Definition scanned (key : Q * Q -> f64) (ps : list (Q * Q)) (v0 x0 : option Q) (c0 : f64) (v1 x1 : option Q) (c1 : f64) : Prop :=
  (exists z v, first_least key ps (z, v) /\ v1 = Some v /\ x1 = Some v /\ c1 = key (z, v)) \/
  (none_counts key ps /\ x1 = x0 /\ c1 = c0 /\ (ps = [] -> v1 = v0) /\ forall q z v, ps = (q ++ [(z, v)])%list -> v1 = Some v).
(** the fitter of the user leaves the velocities alone *)
Definition keeps (e : env) : Prop := forall r, e_moved e r = (r_va r, r_ve r).
(** one value by redshift of the grid, one velocity of each type by candidate, one window by candidate *)
Definition sized (zs : list Q) (n : nat) (s : state) : Prop :=
  length (s_chi s) = length zs /\ length (s_sol s) = length zs /\ length (s_alv s) = n /\ length (s_elv s) = n.
Definition same_sizes (s s' : state) : Prop :=
  length (s_chi s') = length (s_chi s) /\ length (s_sol s') = length (s_sol s) /\
  length (s_alv s') = length (s_alv s) /\ length (s_elv s') = length (s_elv s).
(** l' is l except at i *)
Definition only_at {A} (i : nat) (l l' : list A) : Prop := length l' = length l /\ forall j, j <> i -> nth_error l' j = nth_error l j.
(** a window which is not empty and whose ends are on the grid, at ib and ie *)
Definition bounds (zs w : list Q) (ib ie : nat) : Prop :=
  w <> [] /\ first_at zs (hd 0 w) ib /\ first_at zs (last w 0) ie.
(** the continuum used when the parameters of candidate i are estimated, and when its window is fitted with option o *)
Definition first_cont (c : config) (i : nat) (prev : injected) : injected :=
  if k_tplfit c then match k_option c with 0%nat | 3%nat => Store2 i | _ => Values i end else prev.
Definition second_cont (c : config) (o i : nat) (prev : injected) : injected :=
  if k_tplfit c then match o with 0%nat | 3%nat => Store2 i | 1%nat => Store1 | 2%nat => Values i | _ => prev end else prev.
Definition reest1 (c : config) : nat := match k_reest c with ReAlways => 1 | _ => 0 end.
Definition reest2 (c : config) : nat := match k_reest c with ReAlways => 1 | ReOnlyExtrema => 8 | ReNo => 0 end.
(** sample k of the grid is in the window *)
Definition in_window (zs w : list Q) (k : nat) : Prop := exists z, In z w /\ first_at zs z k.
