(** Vocabulary for C75. *)
From Coq Require Import String Reals Qreals.
From Verif Require Import Base PrihModel.
Open Scope Q_scope.

(** the lines of a file without the comments *)
Definition content (f : list line) : list (list (option Q)) := flat_map (fun x => match x with Comment => [] | Values l => [l] end) f.
(** the token number k is the number x, and only numbers precede it *)
Definition number (l : list (option Q)) (k : nat) (x : Q) : Prop := nth_error l k = Some (Some x) /\ forall i, (i < k)%nat -> exists y, nth_error l i = Some (Some y).
(** the value of the cell (line kz, column ke): the number when it is positive, else 0 *)
Definition cell (f : list line) (kz ke : nat) (v : Q) : Prop :=
  exists l, nth_error (content f) kz = Some l /\ ((number l ke v /\ 0 < v) \/ ((forall x, number l ke x -> x <= 0) /\ v = 0)).
(** a file of p(z): its first number on each line *)
Definition z_cell (f : list line) (kz : nat) (v : Q) : Prop :=
  exists t l, nth_error (content f) kz = Some (t :: l) /\ (t = Some v /\ 0 <= v \/ (forall x, t = Some x -> x < 0) /\ v = 0).
(** tables of the expected sizes *)
Definition shaped (h : helper) : Prop :=
  List.length (h_data h) = List.length (h_names h) /\ List.length (h_pz h) = nZ /\
  forall d, In d (h_data h) -> List.length d = nZ /\ forall r, In r d -> List.length r = nEbv.
(** k is the bin of width 0.25 of the redshift z, the first one below 0 *)
Definition bin (z : Q) (k : nat) : Prop := (k < nZ)%nat /\ (inject_Z (Z.of_nat k) * (1 # 4) <= z < (inject_Z (Z.of_nat k) + 1) * (1 # 4) \/ (z < 0 /\ k = 0%nat)).
Definition some_beta (h : helper) : Prop := 0 < h_bA h \/ 0 < h_bTE h \/ 0 < h_bZ h.
Definition first_named (h : helper) (n : string) (k : nat) : Prop := nth_error (h_names h) k = Some n /\ forall i, (i < k)%nat -> nth_error (h_names h) i <> Some n.
(** the logarithms are those of the densities: the peak of the normal density of the amplitude, p(ebv, template | z), p(z) for a unit of redshift *)
Definition densities (h : helper) (k : nat) (e : entry) (q : tze) : Prop :=
  q_entry q = e /\ q_bA q = h_bA h /\ q_bTE q = h_bTE h /\ q_bZ q = h_bZ h /\
  exp (q_lTE q) = Q2R (e_p e) /\
  (0 < e_sigma e -> exp (q_lA q) = (1 / (Q2R (e_sigma e) * sqrt (2 * PI)))%R) /\
  (e_sigma e <= 0 -> exp (q_lA q) = (1 / Q2R deltaA)%R) /\
  exists pz, nth_error (h_pz h) k = Some pz /\ (0 < pz -> exp (q_lZ q) = (Q2R pz / Q2R (1 # 4))%R) /\ (pz <= 0 -> q_lZ q = 0%R).
