(** The split of the redshift grid into ranges of constant igm correction:
    RedshiftLibrary/src/lib/operator/templatefittinglog.cpp, FindZRanges (370-428);
    templatefittingBase.cpp:202-205 (GetIGMStartingRedshiftValue).  Exact rationals; Int32 indices do
    not overflow. *)
From Verif Require Import Base RangeModel.
Open Scope Q_scope.

(** RESTLAMBDA_LYA, defaults.h:27 *)
Definition GetIGMStartingRedshiftValue (spcLbda0 : Q) : Q := spcLbda0 / 1216 - 1.

(** the index stays at -1 when the value is below the grid (lines 378-379, 391-392) *)
Definition lowerIndex (zs : list Q) (v : Q) : res Z :=
  do o <- getClosestLowerIndex zs v;
  Ok (match o with Some i => Z.of_nat i | None => (-1)%Z end).

(** the loop on the igm redshift bins, lines 386-394 *)
Fixpoint binSplits (zs : list Q) (zmin fr bk : Q) (bins : list Q) : res (list Z) :=
  match bins with
  | [] => Ok []
  | z :: r =>
      if (Qle_bool z zmin || Qle_bool z fr)%bool then binSplits zs zmin fr bk r
      else if Qle_bool bk z then Ok []
      else do iz <- lowerIndex zs z; do s <- binSplits zs zmin fr bk r; Ok (iz :: s)
  end.

(** lines 373-396.  pop_back of an empty vector is UB *)
Definition findSplits (enableIGM : bool) (lambda0 : Q) (bins zs : list Q) : res (list Z) :=
  if enableIGM then
    let zmin := GetIGMStartingRedshiftValue lambda0 in
    do fr <- front zs; do bk <- back zs;
    do s0 <- (if (Qltb fr zmin && Qltb zmin bk)%bool then do i <- lowerIndex zs zmin; Ok [i] else Ok []);
    do s1 <- (if Qltb zmin bk
              then match bins with [] => UB | _ => binSplits zs zmin fr bk (removelast bins) end
              else Ok []);
    Ok (s0 ++ s1)
  else Ok [].

(** lines 407-413: begin and end of the ranges *)
Fixpoint splitRanges (izmin : Z) (splits : list Z) (last : Z) : list (Z * Z) :=
  match splits with
  | [] => [(izmin, last)]
  | izmax :: r => (izmin, izmax) :: splitRanges (izmax + 1) r last
  end.

(** lines 415-425: both ends of every range are read for the log messages *)
Fixpoint readEnds (zs : list Q) (l : list (Z * Z)) : res unit :=
  match l with
  | [] => Ok tt
  | (b, e) :: r =>
      if (b <? 0)%Z then UB else if (e <? 0)%Z then UB
      else do _ <- vget zs (Z.to_nat b); do _ <- vget zs (Z.to_nat e); readEnds zs r
  end.

(** FindZRanges (370-428) *)
Definition FindZRanges (enableIGM : bool) (lambda0 : Q) (bins zs : list Q) : res (list (Z * Z)) :=
  do splits <- findSplits enableIGM lambda0 bins zs;
  let l := splitRanges 0 splits (Z.of_nat (length zs) - 1) in
  do _ <- readEnds zs l;
  Ok l.
