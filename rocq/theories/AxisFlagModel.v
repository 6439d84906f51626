(** Model of the cached verdicts of CSpectrumSpectralAxis: RedshiftLibrary/src/lib/spectrum/spectralaxis.cpp,
    RedshiftLibrary/spectrum/spectralaxis.h, spectrum/axis.h, src/lib/spectrum/axis.cpp.
    Samples are finite reals (no rounding); a division of the samples by zero leaves the reals and is excluded
    from the histories considered (see AxisFlagSpec.v). *)
From Verif Require Import Base RBase RX AxisModel.
Open Scope R_scope.

(** spectralaxis.h:134-139; [None] is boost's indeterminate *)
Record axis := mkAxis { samples : list R; srt : option bool; lg : option bool; stp : rx }.

(** spectralaxis.h:69-81 and spectralaxis.cpp:53-68 with AirVacuum = "": a new axis knows nothing *)
Definition fresh (l : list R) : axis := mkAxis l None None XNaN.
(** spectralaxis.cpp:529-533 *)
Definition resetAxisProperties (a : axis) : axis := mkAxis (samples a) None None (stp a).

(** std::is_sorted and then std::adjacent_find (spectralaxis.cpp:521-524) *)
Fixpoint is_sorted (l : list R) : bool :=
  match l with
  | x :: ((y :: _) as t) => if Rltb y x then false else is_sorted t
  | _ => true
  end.
Fixpoint has_adjacent_equal (l : list R) : bool :=
  match l with
  | x :: ((y :: _) as t) => if Reqb x y then true else has_adjacent_equal t
  | _ => false
  end.
Definition check_sorted (l : list R) : bool := (is_sorted l && negb (has_adjacent_equal l))%bool.
(** spectralaxis.cpp:516-528: (answer, axis with its mutable members updated) *)
Definition isSorted (a : axis) : bool * axis :=
  match srt a with
  | Some b => (b, a)
  | None => let b := check_sorted (samples a) in (b, mkAxis (samples a) (Some b) (lg a) (stp a))
  end.

(** log of the ratio of two consecutive samples (spectralaxis.cpp:346, 355) *)
Definition logstep (l1 l2 : R) : rx := xlog (xdiv (XFin l2) (XFin l1)).
(** spectralaxis.cpp:357-362: the step is too far from the first one *)
Definition bad_step (step0 : rx) (l1 l2 : R) : bool :=
  xgt (xabs (xdiv (xsub (logstep l1 l2) step0) step0)) (XFin (1 / 10)).
Fixpoint some_bad_step (step0 : rx) (l : list R) : bool :=
  match l with
  | x :: ((y :: _) as t) => if bad_step step0 x y then true else some_bad_step step0 t
  | _ => false
  end.
(** spectralaxis.cpp:345-381: (verdict, axis); m_Samples[1] of a shorter axis is UB *)
Definition CheckLoglambdaSampling (a : axis) : res (bool * axis) :=
  match samples a with
  | s0 :: s1 :: _ =>
      if some_bad_step (logstep s0 s1) (samples a)
      then Ok (false, mkAxis (samples a) (srt a) (Some false) (stp a))
      else
        do b <- back (samples a);
        Ok (true, mkAxis (samples a) (srt a) (Some true)
                    (xdiv (logstep s0 b) (XFin (INR (length (samples a)) - 1))))
  | _ => UB
  end.
(** spectralaxis.cpp:402-407 *)
Definition IsLogSampled (a : axis) : res (bool * axis) :=
  match lg a with
  | Some b => Ok (b, a)
  | None => CheckLoglambdaSampling a
  end.
(** spectralaxis.cpp:409-415 *)
Definition GetlogGridStep (a : axis) : res (rx * axis) :=
  do ba <- IsLogSampled a;
  if fst ba then Ok (stp (snd ba), snd ba) else Throw INTERNAL_ERROR.

(** spectralaxis.cpp:102-105 and 110-113 *)
Definition sorted_after_scaling (op : R) (n : nat) (s : option bool) : option bool :=
  let s1 := if Rltb op 0 then match s with Some true => Some false | Some false => None | None => None end else s in
  if Reqb op 0 then Some (Nat.ltb n 2) else s1.
(** axis.h:89-92 through a non-const reference, then an assignment by the caller *)
Definition write (l : list R) (i : nat) (x : R) : res (list R) := vset l i x.

Inductive axop :=
| OScale (c : R)                  (* spectralaxis.cpp:100-107, axis.cpp:49-54 *)
| ODivide (c : R)                 (* spectralaxis.cpp:108-115, axis.cpp:56-61 *)
| OMask (mask : list Q)           (* spectralaxis.cpp:116-124: the axis is replaced by the returned one *)
| OSetSize (n : Z)                (* spectralaxis.cpp:126-135 *)
| OShift (off : R) (d : shift_direction)   (* spectralaxis.cpp:139-165 *)
| OOffset (c : R)                 (* spectralaxis.cpp:167-174 *)
| OExtract (i j : nat)            (* spectralaxis.h:142-149: the axis is replaced by the returned one *)
| OWrite (i : nat) (x : R)        (* axis[i] = x, axis.h:89-92 *)
| OSetSamples (l : list R)        (* axis.h:104-107 *)
| OClear                          (* axis.cpp:64-67 *)
| ORawWrite (i : nat) (x : R)     (* axis.GetSamplesVector()[i] = x, axis.h:113 *)
| OQuerySorted                    (* isSorted(): the cache is filled *)
| OQueryLog.                      (* IsLogSampled(): the cache is filled *)

Definition scale (c : R) (a : axis) : axis :=
  mkAxis (map (fun x => x * c) (samples a)) (sorted_after_scaling c (length (samples a)) (srt a)) (lg a) (stp a).
Definition divide (c : R) (a : axis) : axis :=
  mkAxis (map (fun x => x / c) (samples a)) (sorted_after_scaling c (length (samples a)) (srt a)) (lg a) (stp a).

Definition ax_step (a : axis) (o : axop) : res axis :=
  match o with
  | OScale c => Ok (scale c a)
  | ODivide c => Ok (divide c a)
  | OMask mask =>
      do l <- maskVector mask (samples a);
      Ok (mkAxis l (if Nat.ltb (length l) 2 then Some true else srt a) None XNaN)
  | OSetSize n =>
      if (n <? 0)%Z then Throw STD_length_error
      else
        let k := Z.to_nat n in
        let l := (firstn k (samples a) ++ repeat 0 (k - length (samples a)))%list in
        if (n <? 2)%Z then Ok (mkAxis l (Some true) (lg a) (stp a))
        else if Nat.ltb (length (samples a)) k then Ok (mkAxis l None None (stp a))
        else Ok (mkAxis l (srt a) (lg a) (stp a))
  | OShift off d =>
      if Rltb off 0 then Throw INTERNAL_ERROR
      else if Reqb off 0 then Ok a
      else match d with nShiftForward => Ok (scale off a) | nShiftBackward => Ok (divide off a) end
  | OOffset c =>
      Ok (mkAxis (map (fun x => x + c) (samples a)) (srt a) (if Reqb c 0 then Some false else lg a) (stp a))
  | OExtract i j =>
      (* axis.h:117-123: iterators past the end, or end before begin, are UB; an empty axis gives an empty one *)
      match samples a with
      | [] => Ok (mkAxis [] (srt a) (lg a) (stp a))
      | _ => if (Nat.leb i (S j) && Nat.ltb j (length (samples a)))%bool
             then Ok (mkAxis (firstn (S j - i) (skipn i (samples a))) (srt a) (lg a) (stp a))
             else UB
      end
  | OWrite i x =>
      do l <- write (samples a) i x; Ok (mkAxis l None None (stp a))
  | OSetSamples l => Ok (mkAxis l None None (stp a))
  | OClear => Ok (mkAxis [] None None (stp a))
  | ORawWrite i x =>
      do l <- write (samples a) i x; Ok (mkAxis l (srt a) (lg a) (stp a))
  | OQuerySorted => Ok (snd (isSorted a))
  | OQueryLog => do ba <- IsLogSampled a; Ok (snd ba)
  end.

Fixpoint ax_run (a : axis) (ops : list axop) : res axis :=
  match ops with
  | [] => Ok a
  | o :: t => do a' <- ax_step a o; ax_run a' t
  end.
