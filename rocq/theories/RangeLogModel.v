(** Model of the logarithmic grids of RedshiftLibrary/RedshiftLibrary/common/range.h over the reals. *)
From Verif Require Import Base RBase.
Open Scope R_scope.

Record rrange := mkRR { rb : R; re : R }.

(** std::log of a non-positive number is -inf or NaN and its conversion to Int32 is UB. *)
Definition loggable (x : R) : bool := Rltb 0 x.

(** x, x*e, x*e*e, ... : the loop body of range.h:218-221 *)
Fixpoint geom (n : nat) (x e : R) : list R :=
  match n with O => [] | S k => x :: geom k (x * e) e end.

(** range.h:126-128 *)
Definition isSameSign (r : rrange) (offset : R) : bool :=
  Rleb 0 ((rb r + offset) * (re r + offset)).
(** range.h:179-181 and 207-209: the single-sample shortcut *)
Definition log_short (r : rrange) (delta offset : R) : bool :=
  (Reqb (rb r) (re r) || Reqb delta 0 ||
   Rltb (re r - rb r) ((rb r + offset) * exp delta - (rb r + offset)))%bool.
(** range.h:186-187 and 215-216 *)
Definition log_count (r : rrange) (delta offset : R) : res Z :=
  if (loggable (re r + offset) && loggable (rb r + offset))%bool
  then Rto_int32 ((ln (re r + offset) - ln (rb r + offset)) / delta + 1)
  else UB.

(** range.h:174-195: filled from the last index downward with x *= exp(-delta) *)
Definition SpreadOverLog_backward (r : rrange) (delta offset : R) : res (list R) :=
  if negb (isSameSign r offset) then Throw INTERNAL_ERROR
  else if log_short r delta offset then Ok [re r]
  else
    do count <- log_count r delta offset;
    if Z.ltb count 0 then Throw STD_length_error
    else Ok (rev (map (fun x => x - offset) (geom (Z.to_nat count) (re r + offset) (exp (- delta))))).

(** range.h:197-223 *)
Definition SpreadOverLog (r : rrange) (delta offset : R) (backward : bool) : res (list R) :=
  if negb (isSameSign r offset) then Throw INTERNAL_ERROR
  else if backward then SpreadOverLog_backward r delta offset
  else if log_short r delta offset then Ok [rb r]
  else
    do count <- log_count r delta offset;
    if Z.ltb count 0 then Throw STD_length_error
    else Ok (map (fun x => x - offset) (geom (Z.to_nat count) (rb r + offset) (exp delta))).

(** range.h:240-244 *)
Definition SpreadOverLogZplusOne (r : rrange) (delta : R) (backward : bool) : res (list R) :=
  SpreadOverLog r delta 1 backward.

(** range.h:254-255 (and 234-235): clamp the first and the last sample *)
Definition clamp_endsR (r : rrange) (l : list R) : res (list R) :=
  match l with
  | [] => UB
  | h :: t =>
      let l1 := Rmaxb h (rb r) :: t in
      do b <- back l1;
      vset l1 (length l1 - 1) (Rminb b (re r))
  end.

(** range.h:246-257 *)
Definition SpreadOverLogZplusOneEpsilon (r : rrange) (delta : R) (backward : bool) (epsilon : R)
  : res (list R) :=
  let r' := if backward then mkRR (rb r - epsilon) (re r + 0) else mkRR (rb r + 0) (re r + epsilon) in
  do ret <- SpreadOverLogZplusOne r' delta backward;
  clamp_endsR r ret.

(** range.h:273-288 with logsampling = true *)
Definition spanCenteredWindow_log (r : rrange) (center delta epsilon : R) : res (list R) :=
  do vect <- SpreadOverLogZplusOneEpsilon (mkRR (rb r) center) delta true epsilon;
  do vect_part2 <- SpreadOverLogZplusOneEpsilon (mkRR center (re r)) delta false epsilon;
  match vect_part2 with [] => UB | _ :: t => Ok (vect ++ t) end.
