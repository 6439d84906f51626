(** Model of the matching of detected lines with a catalog: RedshiftLibrary/src/lib/operator/linematching.cpp, linematchingresult.cpp,
    header operator/linematchingresult.h:62-84, line/linedetected.h:69-81, the filter of line/catalog.cpp:61-78.  Exact rationals.
    A catalog is the list of its lines in the order of their identifiers (std::map).  The redshift of a pair divides by the rest wavelength, taken positive. *)
From Coq Require Import String.
From Verif Require Import Base SortLib.
Open Scope Q_scope.

(** a line: identifier, position, name, of emission, strong; a detected line has an amplitude too *)
Record rest := mkRest { r_id : Z; r_pos : Q; r_name : string; r_em : bool; r_strong : bool }.
Record det := mkDet { d_id : Z; d_pos : Q; d_amp : Q; d_em : bool; d_strong : bool }.
Record sol := mkSol { s_d : det; s_r : rest; s_z : Q }.
(** catalog.cpp:61-78; None: no filter *)
Definition keeps (flt : option bool) (b : bool) : bool := match flt with None => true | Some f => Bool.eqb f b end.
Definition filter_rest (ty fo : option bool) (l : list rest) : list rest := filter (fun r => keeps ty (r_em r) && keeps fo (r_strong r)) l.
Definition filter_det (ty fo : option bool) (l : list det) : list det := filter (fun d => keeps ty (d_em d) && keeps fo (d_strong d)) l.

(** linematching.cpp:115-121 *)
Definition redshift (d : det) (r : rest) : Q := (d_pos d - r_pos r) / r_pos r.
(** linematching.cpp:161-170 *)
Definition isLineAlreadyPresent (d : det) (s : list sol) : bool := existsb (fun c => Qeq_bool (d_pos (s_d c)) (d_pos d)) s.
(** linematching.cpp:136-149: the loop on the rest lines *)
Fixpoint update_rest (tol z : Q) (d2 : det) (rs : list rest) (s : list sol) : list sol :=
  match rs with
  | [] => s
  | r2 :: t =>
    let z2 := redshift d2 r2 in
    if Qltb z2 0 then update_rest tol z d2 t s
    else if Qltb (tol * (1 + (z + z2) * (1 # 2))) (Qabs (z - z2)) then update_rest tol z d2 t s
    else if isLineAlreadyPresent d2 s then update_rest tol z d2 t s
    else update_rest tol z d2 t (s ++ [mkSol d2 r2 z2])
  end.
(** linematching.cpp:123-152 *)
Fixpoint updateSolution (id : Z) (z tol : Q) (ds : list det) (rs : list rest) (s : list sol) : list sol :=
  match ds with
  | [] => s
  | d2 :: t => updateSolution id z tol t rs (if Z.eqb id (d_id d2) then s else update_rest tol z d2 rs s)
  end.
(** linematching.cpp:75-98: the loop on the rest lines of a detected line; [single]: there is one rest line *)
Fixpoint match_rest (single : bool) (tol : Q) (ds : list det) (rs : list rest) (d : det) (l : list rest) : list (list sol) :=
  match l with
  | [] => []
  | r :: t =>
    let z := redshift d r in
    if Qltb z 0 then match_rest single tol ds rs d t
    else if single then [[mkSol d r z]]
    else let s := updateSolution (d_id d) z tol ds rs [mkSol d r z] in
         (match s with [] => [] | _ => [s] end) ++ match_rest single tol ds rs d t
  end.
Definition all_matches (tol : Q) (ds : list det) (rs : list rest) : list (list sol) :=
  flat_map (fun d => match_rest (Nat.eqb (List.length rs) 1) tol ds rs d rs) ds.

(** linematchingresult.h:76-83 *)
Definition sol_lt (a b : sol) : bool :=
  if Qeq_bool (d_pos (s_d a)) (d_pos (s_d b)) then Qltb (r_pos (s_r a)) (r_pos (s_r b)) else Qltb (d_pos (s_d a)) (d_pos (s_d b)).
(** linedetected.h:76-81 *)
Definition det_ne (a b : det) : bool :=
  if Qeq_bool (d_pos a) (d_pos b) then negb (Qeq_bool (d_amp a) (d_amp b)) else negb (Qeq_bool (d_pos a) (d_pos b)).
(** linematching.cpp:208-226 *)
Fixpoint same_items (a b : list sol) : bool :=
  match a, b with
  | x :: s, y :: t => if det_ne (s_d x) (s_d y) || negb (Z.eqb (r_id (s_r x)) (r_id (s_r y))) || negb (Qeq_bool (s_z x) (s_z y)) then false else same_items s t
  | _, _ => true
  end.
Definition AreSolutionSetsEqual (a b : list sol) : bool := if Nat.eqb (List.length a) (List.length b) then same_items a b else false.
(** the comparison of a size with an Int32 converts the latter to unsigned: a negative one is larger than any size *)
Definition below (n : nat) (k : Z) : bool := (k <? 0)%Z || (Z.of_nat n <? k)%Z.
Definition sum_z (s : list sol) : Q := fold_left (fun v x => v + s_z x) s 0.
Definition mean_z (s : list sol) : Q := sum_z s / inject_Z (Z.of_nat (List.length s)).
(** linematching.cpp:172-203 *)
Fixpoint refine_loop (lo hi : Q) (thr : Z) (l : list (list sol)) (new : list (list sol)) : list (list sol) :=
  match l with
  | [] => new
  | s0 :: t =>
    if below (List.length s0) thr then refine_loop lo hi thr t new
    else let s := isort sol_lt s0 in
         if existsb (fun n => AreSolutionSetsEqual n s) new then refine_loop lo hi thr t new
         else refine_loop lo hi thr t (if Qltb lo (mean_z s) && Qltb (mean_z s) hi then new ++ [s] else new)
  end.
(** linematching.cpp:59-113; None: the null pointer *)
Definition Compute (dcat : list det) (rcat : list rest) (lo hi : Q) (thr : Z) (tol : Q) (ty dfo rfo : option bool) : option (list (list sol)) :=
  match refine_loop lo hi thr (all_matches tol (filter_det ty dfo dcat) (filter_rest ty rfo rcat)) [] with
  | [] => None
  | l => Some l
  end.

(** ** linematchingresult.cpp *)
(** :116-127; the comparison is unsigned *)
Definition GetSolutionsListOverNumber (l : list (list sol)) (k : Z) : list (list sol) :=
  filter (fun s => if (k <? 0)%Z then false else (k <? Z.of_nat (List.length s))%Z) l.
(** :214-236 *)
Definition getNStrongRestLines (rcat : list rest) (s : list sol) : Z :=
  let strong := filter_rest (Some true) (Some true) rcat in
  Z.of_nat (List.length (filter (fun c => existsb (fun r => Qltb (Qabs (r_pos (s_r c) - r_pos r)) (11 # 100)) strong) s)).
(** :61-85: the loop of GetBestRedshift; the best and its number of strong lines, (-1) at the start *)
Fixpoint best_loop (rcat : list rest) (l : list (list sol)) (best : option (list sol * Z)) : option (list sol * Z) :=
  match l with
  | [] => best
  | s :: t =>
    let n := getNStrongRestLines rcat s in
    best_loop rcat t
      match best with
      | None => Some (s, n)
      | Some (b, nb) => if (nb <? n)%Z then Some (s, n) else if (n =? nb)%Z && Nat.ltb (List.length b) (List.length s) then Some (s, n) else Some (b, nb)
      end
  end.
(** :55-91: redshift and number of lines; None: false *)
Definition GetBestRedshift (rcat : list rest) (l : list (list sol)) : option (Q * nat) :=
  match best_loop rcat (GetSolutionsListOverNumber l 1) None with
  | Some (s, _) => Some (mean_z s, List.length s)
  | None => None
  end.
(** :242-255 *)
Definition GetMaxMatchingNumber (l : list (list sol)) : Z :=
  match l with [] => (-1)%Z | _ => fold_left (fun m s => if (m <? Z.of_nat (List.length s))%Z then Z.of_nat (List.length s) else m) l 0%Z end.
(** :100-112: the number of lines and, if true is returned, the redshift *)
Definition GetBestMatchNumRedshift (l : list (list sol)) : Z * option Q :=
  let n := GetMaxMatchingNumber l in
  (n, match GetSolutionsListOverNumber l (n - 1) with s :: _ => Some (mean_z s) | [] => None end).
(** :133-143 *)
Definition GetAverageRedshiftListOverNumber (l : list (list sol)) (k : Z) : list Q := map mean_z (GetSolutionsListOverNumber l k).
(** conversion of a double to an int: towards zero (overflow not modelled) *)
Definition to_int (x : Q) : Z := if Qltb x 0 then Qceiling x else Qfloor x.
(** :149-159 *)
Definition GetRoundedRedshiftCandidatesOverNumber (l : list (list sol)) (k : Z) (step : Q) : list Q :=
  map (fun z => inject_Z (to_int (z / step + (1 # 2))) * step) (GetAverageRedshiftListOverNumber l k).
(** :166-183 *)
Fixpoint uniq (l : list Q) : list Q :=
  match l with
  | a :: (b :: _) as t => if Qeq_bool a b then match uniq t with [] => [a] | _ :: k => a :: k end else a :: uniq t
  | _ => l
  end.
Definition offsets (h : Z) : list Z := map (fun i => (Z.of_nat i - h)%Z) (seq 0 (Z.to_nat (2 * h))).
Definition GetExtendedRedshiftCandidatesOverNumber (l : list (list sol)) (k : Z) (step width : Q) : list Q :=
  let h := to_int (width / step / 2) in
  uniq (qsort (flat_map (fun z => map (fun i => z + inject_Z i * step) (offsets h)) (GetRoundedRedshiftCandidatesOverNumber l k step))).
(** :189-201: the size minus one is unsigned: for an empty list it is larger than any index *)
Definition GetMeanRedshiftSolutionByIndex (l : list (list sol)) (i : Z) : res Q :=
  match l with
  | [] => UB
  | _ => if (i <? 0)%Z || (Z.of_nat (List.length l) - 1 <? i)%Z then Ok (- (1)) else do s <- vget l (Z.to_nat i); Ok (mean_z s)
  end.
(** :261-294: kept, removed and their codes; [check] is CRules::check *)
Fixpoint filter_rules (check : Q -> list sol -> Z) (l : list (list sol)) (acc : list (list sol) * list (list sol) * list Z) : list (list sol) * list (list sol) * list Z :=
  match l with
  | [] => acc
  | s :: t => let '(k, f, c) := acc in let id := check (mean_z s) s in
              filter_rules check t (if (id <=? 0)%Z then (k ++ [s], f, c) else (k, f ++ [s], c ++ [id]))
  end.
Definition FilterWithRules (check : Q -> list sol -> Z) (l removed : list (list sol)) (codes : list Z) : list (list sol) * list (list sol) * list Z :=
  match l with [] => (l, removed, codes) | _ => filter_rules check l ([], removed, codes) end.
