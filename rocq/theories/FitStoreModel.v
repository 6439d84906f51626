(** Model of CTemplatesFitStore (RedshiftLibrary/src/lib/linemodel/templatesfitstore.cpp,
    RedshiftLibrary/RedshiftLibrary/linemodel/templatesfitstore.h).  Exact rationals, no NaN. *)
From Verif Require Import Base.
Open Scope Q_scope.

(** CTplModelSolution (operator/tplmodelsolution.h): the fields that decide; [f_tag] stands for every other one *)
Record fit := mkFit { f_z : Q; f_merit : Q; f_ampsig : Q; f_tag : nat }.
(** templatesfitstore.h:88-93 *)
Record fstore := mkFS { fs_grid : list Q; fs_vals : list (list fit); fs_count : nat }.
(** templatesfitstore.cpp:47-61 *)
Definition fs_new (grid : list Q) : fstore := mkFS grid (map (fun _ => []) grid) 0.
(** GetRedshiftIndex, templatesfitstore.cpp:67-73 ([None] is -1) *)
Fixpoint find_index (l : list Q) (z : Q) : option nat :=
  match l with [] => None | x :: t => if Qeq_bool x z then Some O else option_map S (find_index t z) end.
Definition GetRedshiftIndex (s : fstore) (z : Q) : option nat := find_index (fs_grid s) z.
(** comparator, templatesfitstore.cpp:135-139: is the new fit before [f]? *)
Definition fit_before (merit asig : Q) (f : fit) : bool :=
  if negb (Qeq_bool merit (f_merit f)) then Qltb merit (f_merit f) else Qltb (Qabs (f_ampsig f)) asig.
(** std::upper_bound and insert, templatesfitstore.cpp:131-139 and 152: on a ranked list (the invariant proved below) the binary
    search finds the first fit which the new one precedes, which is what is computed here *)
Fixpoint insert_fit (l : list fit) (f : fit) : list fit :=
  match l with
  | [] => [f]
  | g :: t => if fit_before (f_merit f) (Qabs (f_ampsig f)) g then f :: g :: t else g :: insert_fit t f
  end.
(** Add, templatesfitstore.cpp:102-162 *)
Definition Add (s : fstore) (f : fit) : res fstore :=
  match GetRedshiftIndex s (f_z f) with
  | None => Throw INTERNAL_ERROR
  | Some i =>
      do l <- vget (fs_vals s) i;
      let l' := insert_fit l f in
      do v <- vset (fs_vals s) i l';
      Ok (mkFS (fs_grid s) v (if (fs_count s <? length l')%nat then length l' else fs_count s))
  end.
Fixpoint AddAll (s : fstore) (l : list fit) : res fstore :=
  match l with [] => Ok s | f :: t => do s' <- Add s f; AddAll s' t end.
(** the rank tests, templatesfitstore.cpp:171-182 and 195-207 *)
Definition rank_ok (s : fstore) (rank : Z) : bool := (negb (Z.of_nat (fs_count s) - 1 <? rank) && negb (rank <? 0))%Z.
(** GetFitValues(Int32, Int32), templatesfitstore.cpp:168-190; the size is compared as an unsigned number: size - 1 of an
    empty grid is the largest one *)
Definition GetFitValues_idx (s : fstore) (idxz rank : Z) : res fit :=
  if negb (rank_ok s rank) then Throw INTERNAL_ERROR else
  if ((idxz <? 0) || (negb (Nat.eqb (length (fs_grid s)) 0) && (Z.of_nat (length (fs_grid s)) - 1 <? idxz)))%Z%bool then Throw INTERNAL_ERROR
  else do l <- vget (fs_vals s) (Z.to_nat idxz); vget l (Z.to_nat rank).
(** GetFitValues(Float64, Int32), templatesfitstore.cpp:192-249; 236-242 read the 10 first redshifts *)
Definition GetFitValues_z (s : fstore) (z : Q) (rank : Z) : res fit :=
  if negb (rank_ok s rank) then Throw INTERNAL_ERROR else
  do front <- vget (fs_grid s) 0; do back <- vget (fs_grid s) (length (fs_grid s) - 1);
  if (Qltb z front || Qltb back z)%bool then Throw INTERNAL_ERROR else
  match GetRedshiftIndex s z with
  | None => if (length (fs_grid s) <? 10)%nat then UB else Throw INTERNAL_ERROR
  | Some i => do l <- vget (fs_vals s) i; vget l (Z.to_nat rank)
  end.
(** FindMaxAmplitudeSigma, templatesfitstore.cpp:251-268: [None] is -infinity with untouched outputs *)
Fixpoint max_loop (grid : list Q) (vals : list (list fit)) (best : option (Q * fit)) : res (option (Q * fit)) :=
  match grid, vals with
  | [], _ => Ok best
  | z :: g, l :: v =>
      do f <- vget l 0;
      max_loop g v (if match best with None => true | Some (_, b) => Qltb (f_ampsig b) (f_ampsig f) end then Some (z, f) else best)
  | _ :: _, [] => UB
  end.
Definition FindMaxAmplitudeSigma (s : fstore) : res (option (Q * fit)) := max_loop (fs_grid s) (fs_vals s) None.
