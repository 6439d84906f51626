(** Model of the list of elements of the line model and of the grouping of the hybrid fit:
    RedshiftLibrary/src/lib/linemodel/elementlist.cpp:48-517, hybridfitter.cpp:115-175 (fitAmplitudesHybrid: which elements are
    fitted together), lmeltlistvector.cpp:88-97, 137-190, 195-230.
    Exact rationals, NaN = None.  The strings are compared byte by byte as in std::map. *)
From Coq Require Import String.
From Verif Require Import Base SortLib AxisModel ElemModel EfitModel.
Open Scope Q_scope.

(** what the list reads in a line: position, N sigma support, IsOutsideLambdaRangeLine, IsEmission, velocity group, string id, IsStrong, name, fitted amplitude, id *)
Record hline := mkH { h_pos : Q; h_nsigma : Q; h_out : bool; h_em : bool; h_vel : option string; h_sid : string; h_strong : bool; h_name : string; h_amp : option Q; h_id : Z }.
(** and in an element: IsOutsideLambdaRange, its type, its lines, GetLineWidth, getSupport, m_sumGauss, fitting group, polynomial, amplitude *)
Record hel := mkHel { b_out : bool; b_em : bool; b_lines : list hline; b_width : Q -> Q; b_supp : list (Z * Z); b_gauss : option Q; b_group : option string; b_poly : Q -> Q; b_amp : option Q }.

(** std::sort then std::unique and erase *)
Section Usort.
  Context {A : Type}.
  Variables (lt eqb : A -> A -> bool).
  Fixpoint uniq (l : list A) : list A :=
    match l with
    | [] => []
    | x :: t => match t with
                | [] => [x]
                | y :: _ => if eqb x y then uniq t else x :: uniq t
                end
    end.
  Definition usort (l : list A) : list A := uniq (isort lt l).
End Usort.

(** elementlist.cpp:54-64 *)
Definition GetModelValidElementsNDdl (es : list hel) : nat := List.length (filter (fun e => negb (b_out e)) es).
(** elementlist.cpp:88-92 *)
Definition IsElementIndexInDisabledList (disabled : list nat) (i : nat) : bool := existsb (Nat.eqb i) disabled.
(** elementlist.cpp:70-83; [i] is the index of the first element *)
Fixpoint valid_loop (disabled : list nat) (i : nat) (es : list hel) : list nat :=
  match es with
  | [] => []
  | e :: t => if b_out e then valid_loop disabled (S i) t
              else if IsElementIndexInDisabledList disabled i then valid_loop disabled (S i) t
              else i :: valid_loop disabled (S i) t
  end.
Definition GetModelValidElementsIndexes (disabled : list nat) (es : list hel) : list nat := valid_loop disabled 0 es.
(** elementparam.cpp:114-118 *)
Definition positive (a : option Q) : bool := match a with Some v => Qltb 0 v | None => false end.
Definition isAllAmplitudesNull (e : hel) : bool := negb (existsb (fun l => positive (h_amp l)) (b_lines e)).
(** elementlist.cpp:99-109 *)
Fixpoint disable_loop (i : nat) (es : list hel) (disabled : list nat) : list nat :=
  match es with
  | [] => disabled
  | e :: t => if b_out e then disable_loop (S i) t disabled
              else if isAllAmplitudesNull e then disable_loop (S i) t (disabled ++ [i])%list
              else disable_loop (S i) t disabled
  end.
Definition SetElementIndexesDisabledAuto (es : list hel) (disabled : list nat) : list nat := disable_loop 0 es disabled.

(** ** maps from a tag to the elements, in the order of the tags *)
Fixpoint tag_push (k : string) (i : nat) (m : list (string * list nat)) : list (string * list nat) :=
  match m with
  | [] => [(k, [i])]
  | (k', l) :: t => match String.compare k k' with
                    | Eq => (k', (l ++ [i])%list) :: t
                    | Lt => (k, [i]) :: m
                    | Gt => (k', l) :: tag_push k i t
                    end
  end.
(** elementlist.cpp:130-141: one entry for each line of the type *)
Definition velfit_tag (l : hline) : string := match h_vel l with Some t => t | None => ("single_" ++ h_sid l)%string end.
Definition velfit_element (em : bool) (i : nat) (m : list (string * list nat)) (e : hel) : list (string * list nat) :=
  fold_left (fun m l => if Bool.eqb (h_em l) em then tag_push (velfit_tag l) i m else m) (b_lines e) m.
Fixpoint velfit_loop (em : bool) (es : list hel) (idx : list nat) (m : list (string * list nat)) : res (list (string * list nat)) :=
  match idx with
  | [] => Ok m
  | i :: t => do e <- vget es i; velfit_loop em es t (velfit_element em i m e)
  end.
(** elementlist.cpp:121-164; 143-147 sorts and removes the duplicates in a copy of each group, so that it has no effect *)
Definition GetModelVelfitGroups (disabled : list nat) (es : list hel) (em : bool) : res (list (list nat)) :=
  do m <- velfit_loop em es (GetModelValidElementsIndexes disabled es) [];
  Ok (map snd m).

(** elementlist.cpp:206-229: the windows of two lines have more than a part of that of the first in common *)
Definition lines_overlap (z thres : Q) (ref el : hel) (r l : hline) : bool :=
  let muRef := h_pos r * (1 + z) in
  let winsizeRef := h_nsigma r * b_width ref muRef in
  let xinf := muRef - winsizeRef / 2 in
  let xsup := muRef + winsizeRef / 2 in
  let muElt := h_pos l * (1 + z) in
  let winsizeElt := h_nsigma l * b_width el muElt in
  let yinf := muElt - winsizeElt / 2 in
  let ysup := muElt + winsizeElt / 2 in
  Qltb (Qmax xinf yinf - Qmin xsup ysup) (- (winsizeRef * thres)).
(** elementlist.cpp:199-236: the index is pushed once for each line of the element which overlaps a line of the reference *)
Definition overlap_pushes (z thres : Q) (ref : hel) (i : nat) (el : hel) : list nat :=
  flat_map (fun l => if h_out l then []
                     else if existsb (fun r => negb (h_out r) && lines_overlap z thres ref el r l) (b_lines ref) then [i] else []) (b_lines el).
Fixpoint overlap_loop (z thres : Q) (ref : hel) (ind : nat) (excluded : list nat) (i : nat) (es : list hel) : list nat :=
  match es with
  | [] => []
  | el :: t => ((if Nat.eqb i ind then [ind]
                 else if negb (Bool.eqb (b_em el) (b_em ref)) then []
                 else if b_out el then []
                 else if existsb (Nat.eqb i) excluded then []
                 else overlap_pushes z thres ref i el) ++ overlap_loop z thres ref ind excluded (S i) t)%list
  end.
(** elementlist.cpp:174-245 *)
Definition getOverlappingElements (es : list hel) (ind : nat) (excluded : list nat) (z thres : Q) : res (list nat) :=
  do ref <- vget es ind;
  if b_out ref then Ok [ind]
  else Ok (usort Nat.ltb Nat.eqb (overlap_loop z thres ref ind excluded 0 es)).

(** ** hybridfitter.cpp:115-175: the groups of elements fitted together, with the element which begins the group.  The fits change
    neither the positions nor the widths nor the ranges, on which the groups depend *)
Fixpoint hybrid_loop (es : list hel) (z thres : Q) (todo : list nat) (fitted : list nat) : res (list (nat * list nat)) :=
  match todo with
  | [] => Ok []
  | i :: t => if existsb (Nat.eqb i) fitted then hybrid_loop es z thres t fitted
              else do g <- getOverlappingElements es i fitted z thres;
                   do r <- hybrid_loop es z thres t (g ++ fitted)%list;
                   Ok ((i, g) :: r)
  end.
(** defaults.h:32-33 *)
Definition OVERLAP_THRES_HYBRID_FIT : Q := 15 # 100.
Definition hybrid_groups (es : list hel) (disabled : list nat) (z : Q) : res (list (nat * list nat)) :=
  hybrid_loop es z OVERLAP_THRES_HYBRID_FIT (GetModelValidElementsIndexes disabled es) [].

(** ** elementlist.cpp:251-257 *)
Definition GetElementAmplitude (es : list hel) (j : Z) : option Q :=
  if (0 <=? j)%Z && (j <? Z.of_nat (List.length es))%Z then match nth_error es (Z.to_nat j) with Some e => b_amp e | None => None end else Some (-1).
(** elementlist.cpp:265-282; [filter] = None is nType_All *)
Fixpoint nonzero_loop (es : list hel) (flt : option bool) (idx : list nat) : res (list nat) :=
  match idx with
  | [] => Ok []
  | i :: t => do e <- vget es i; do r <- nonzero_loop es flt t;
              Ok (if match flt with None => true | Some b => Bool.eqb b (b_em e) end then if positive (b_amp e) then i :: r else r else r)
  end.
Definition getValidElementIndices (disabled : list nat) (es : list hel) (flt : option bool) : res (list nat) :=
  nonzero_loop es flt (GetModelValidElementsIndexes disabled es).
(** elementparam.cpp getLineIndex: the line of the id (m_LinesIds keeps the last line of each id) *)
Fixpoint line_index (id : Z) (i : nat) (ls : list hline) (acc : option nat) : option nat :=
  match ls with [] => acc | l :: t => line_index id (S i) t (if Z.eqb (h_id l) id then Some i else acc) end.
(** elementlist.cpp:290-303 *)
Fixpoint findElementIndex (id : Z) (i : nat) (es : list hel) : option (nat * nat) :=
  match es with
  | [] => None
  | e :: t => match line_index id 0 (b_lines e) None with Some j => Some (i, j) | None => findElementIndex id (S i) t end
  end.

(** ** elementlist.cpp:311-336 *)
Fixpoint support_samples (es : list hel) (idx : list nat) : res (list Z) :=
  match idx with
  | [] => Ok []
  | i :: t => do e <- vget es i; do r <- support_samples es t;
              Ok (if b_out e then r else (flat_map (fun p => zrange (fst p) (snd p)) (b_supp e) ++ r)%list)
  end.
Definition getSupportIndexes (es : list hel) (idx : list nat) : res (list Z) := do l <- support_samples es idx; Ok (usort Z.ltb Z.eqb l).

(** elementlist.cpp:449-484 *)
Fixpoint fitting_loop (es : list hel) (flt : option bool) (idx : list nat) (m : list (string * list nat)) : res (list (string * list nat)) :=
  match idx with
  | [] => Ok m
  | i :: t => do e <- vget es i;
              if negb match flt with None => true | Some b => Bool.eqb b (b_em e) end then fitting_loop es flt t m
              else match b_group e with None => fitting_loop es flt t m | Some k => fitting_loop es flt t (tag_push k i m) end
  end.
Definition getFittingGroups (es : list hel) (idx : list nat) (flt : option bool) : res (list (string * list nat)) :=
  fitting_loop es flt (match idx with [] => seq 0 (List.length es) | _ => idx end) [].
(** elementlist.cpp:338-367 *)
Definition offset_sample (axis : list Q) (p : Q -> Q) (fm : list Q * list Q) (s : Z) : res (list Q * list Q) :=
  do v <- zget (fst fm) s; do x <- zget axis s; do k <- zget (snd fm) s;
  do f <- zset (fst fm) s (v + p x * k);
  do m <- zset (snd fm) s 0;
  Ok (f, m).
Definition offset_group (es : list hel) (axis : list Q) (fm : list Q * list Q) (g : string * list nat) : res (list Q * list Q) :=
  do samples <- getSupportIndexes es (snd g);
  match snd g with
  | [] => UB
  | i :: _ => do e <- vget es i; rfold (offset_sample axis (b_poly e)) samples fm
  end.
Definition addToSpectrumAmplitudeOffset (es : list hel) (axis flux : list Q) (idx : list nat) (flt : option bool) : res (list Q) :=
  do gs <- getFittingGroups es idx flt;
  do fm <- rfold (offset_group es axis) gs (flux, map (fun _ => 1) flux);
  Ok (fst fm).

(** ** elementlist.cpp:375-397; [logf] is the logarithm, None for the index is undefIdx *)
Fixpoint marg_loop (logf : Q -> Q) (es : list hel) (corr : Q) : Q :=
  match es with
  | [] => corr
  | e :: t => if b_out e then marg_loop logf t corr
              else match b_gauss e with
                   | Some mtm => if Qltb 0 mtm then marg_loop logf t (corr + logf mtm) else marg_loop logf t corr
                   | None => marg_loop logf t corr
                   end
  end.
Definition getScaleMargCorrection (logf : Q -> Q) (es : list hel) (i : option nat) : res Q :=
  match i with None => Ok (marg_loop logf es 0) | Some i => do e <- vget es i; Ok (marg_loop logf [e] 0) end.
(** elementlist.cpp:403-427 *)
Definition strong_line (l : hline) : bool := h_em l && h_strong l && positive (h_amp l).
Fixpoint any_valid (P : hline -> bool) (es : list hel) (idx : list nat) : res bool :=
  match idx with
  | [] => Ok false
  | i :: t => do e <- vget es i; if existsb P (b_lines e) then Ok true else any_valid P es t
  end.
Definition GetModelStrongEmissionLinePresent (disabled : list nat) (es : list hel) : res bool := any_valid strong_line es (GetModelValidElementsIndexes disabled es).
(** elementlist.cpp:433-465; None: no emission line of positive amplitude yet *)
Definition ha_line (acc : option (Q * string)) (l : hline) : option (Q * string) :=
  if negb (h_em l) then acc
  else match h_amp l with
       | None => acc
       | Some a => if negb (Qltb 0 a) then acc
                   else match acc with
                        | None => Some (a, h_name l)
                        | Some (m, _) => if Qltb m a then Some (a, h_name l) else acc
                        end
       end.
Fixpoint ha_loop (es : list hel) (idx : list nat) (acc : option (Q * string)) : res (option (Q * string)) :=
  match idx with
  | [] => Ok acc
  | i :: t => do e <- vget es i; ha_loop es t (fold_left ha_line (b_lines e) acc)
  end.
Definition halpha_em : string := "Halpha"%string.
Definition GetModelHaStrongest (disabled : list nat) (es : list hel) : res bool :=
  do r <- ha_loop es (GetModelValidElementsIndexes disabled es) None;
  Ok match r with Some (_, n) => String.eqb n halpha_em | None => false end.

(** ** lmeltlistvector.cpp:88-97; [out] is m_globalOutsideLambdaRange *)
Fixpoint GetModelNonZeroElementsNDdl (out : list bool) (es : list hel) : nat :=
  match es, out with
  | e :: t, o :: u => ((if o then 0 else if isAllAmplitudesNull e then 0 else 1) + GetModelNonZeroElementsNDdl u t)%nat
  | _, _ => 0%nat
  end.
(** lmeltlistvector.cpp:163-184: the lines of each element *)
Definition LoadCatalogOneLineByElement (lines : list hline) : list (list hline) := map (fun l => [l]) lines.
Definition LoadCatalogTwoMultilinesAE (lines : list hline) : list (list hline) :=
  filter (fun g => negb (Nat.eqb (List.length g) 0)) [filter (fun l => negb (h_em l)) lines; filter h_em lines].
