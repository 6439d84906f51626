(** Vocabulary for C71. *)
From Coq Require Import String.
From Verif Require Import Base MatchModel.
Open Scope Q_scope.

(** the redshift at which the rest line r is seen at the position of d *)
Definition at_redshift (d : det) (r : rest) (z : Q) : Prop := d_pos d == (1 + z) * r_pos r.
(** two redshifts agree within the tolerance *)
Definition agree (tol z z2 : Q) : Prop := Qabs (z - z2) <= tol * (1 + (z + z2) / 2).
Definition agreeb (tol z z2 : Q) : bool := Qle_bool (Qabs (z - z2)) (tol * (1 + (z + z2) / 2)).
Definition z_of (d : det) (r : rest) : Q := d_pos d / r_pos r - 1.
(** the first rest line at which d2 is seen at a non negative redshift which agrees with z *)
Definition partner (tol z : Q) (rs : list rest) (d2 : det) : option rest := find (fun r => Qle_bool 0 (z_of d2 r) && agreeb tol z (z_of d2 r))%bool rs.
Definition pairs_of (s : list sol) : list (det * rest) := map (fun x => (s_d x, s_r x)) s.
(** the pairs of the solution of the pair d, r: the pair, and each other detected line with its first partner; with one rest line only the pair *)
Definition group (tol : Q) (ds : list det) (rs : list rest) (d : det) (r : rest) : list (det * rest) :=
  (d, r) :: match rs with
            | [_] => []
            | _ => flat_map (fun d2 => if Z.eqb (d_id d2) (d_id d) then [] else match partner tol (z_of d r) rs d2 with Some r2 => [(d2, r2)] | None => [] end) ds
            end.
(** distinct positions *)
Definition distinct_positions (ds : list det) : Prop := ForallOrdPairs (fun a b => ~ d_pos a == d_pos b) ds.
Definition mean_of (l : list (det * rest)) : Q := fold_right (fun p s => z_of (fst p) (snd p) + s) 0 l / inject_Z (Z.of_nat (List.length l)).
(** in order of position *)
Definition by_position (s : list sol) : Prop := StronglySorted (fun a b => d_pos (s_d a) < d_pos (s_d b)) s.
Definition mean_redshift (s : list sol) : Q := fold_right (fun x v => s_z x + v) 0 s / inject_Z (Z.of_nat (List.length s)).
(** the number of lines of a solution near (0.11) a strong emission line of the catalog *)
Definition near_strong (rcat : list rest) (x : sol) : bool := existsb (fun r => (r_em r && r_strong r && Qltb (Qabs (r_pos (s_r x) - r_pos r)) (11 # 100))%bool) rcat.
Definition strong_count (rcat : list rest) (s : list sol) : nat := List.length (filter (near_strong rcat) s).
(** a is strictly better than b: more strong lines, or as many and more lines *)
Definition better (rcat : list rest) (a b : list sol) : Prop := (strong_count rcat b < strong_count rcat a)%nat \/ strong_count rcat a = strong_count rcat b /\ (List.length b < List.length a)%nat.
Definition strictly_increasing (l : list Q) : Prop := StronglySorted Qlt l.
