(** Model of the candidates handed from the first to the second pass of the line model:
    RedshiftLibrary/src/lib/operator/linemodelpassextremaresult.cpp:46-99,
    RedshiftLibrary/RedshiftLibrary/operator/linemodelpassextremaresult.h:51-93,
    RedshiftLibrary/src/lib/operator/linemodel.cpp:578-724 and
    RedshiftLibrary/src/lib/linemodel/linemodelextremaresult.cpp:48-60.
    Redshifts are exact rationals; [None] is NaN. *)
From Coq Require Import String.
From Verif Require Import Base RangeModel.
Open Scope Q_scope.

(** TCandidateZ (statistics/pdfcandidatesz.i): [c_rest] stands for the probabilities, the parent, the rank *)
Record cand := mkC { c_z : Q; c_rest : nat }.
(** CTplModelSolution (operator/tplmodelsolution.i): [t_rest] stands for the other fields *)
Record tplsol := mkTS { t_name : string; t_amp : option Q; t_rest : nat }.
(** CLineModelSolution (linemodel/linemodelsolution.i): [l_rest] stands for the other fields *)
Record linesol := mkLS { l_elv : option Q; l_alv : option Q; l_rest : nat }.
(** CLineModelResult: Redshifts, LineModelSolutions, ContinuumModelSolutions (operator/linemodelresult.h) *)
Record result := mkR { r_z : list Q; r_lines : list linesol; r_cont : list tplsol }.
(** TCandidateZbyRank: identifier and shared pointer, [None] is the null pointer *)
Definition ranked := (string * option cand)%type.
(** CLineModelPassExtremaResult, linemodelpassextremaresult.h:66-78 *)
Record pass := mkPass { p_cands : list ranked; p_tpl : list tplsol; p_ext : list (list Q);
  p_elv : list (option Q); p_alv : list (option Q); p_gelv : list (list (option Q)); p_galv : list (list (option Q)) }.

(** std::vector::resize(size, value) *)
Definition resize {A} (l : list A) (n : nat) (d : A) : list A := (firstn n l ++ repeat d (n - List.length l))%list.
(** a default CTplModelSolution (tplmodelsolution.i; undefStr is "undefined") *)
Definition no_tpl : tplsol := mkTS "undefined" None 0.
(** linemodelpassextremaresult.cpp:48-64: the extended redshifts are not resized *)
Definition Resize (p : pass) (n : nat) : pass :=
  mkPass (resize (p_cands p) n (EmptyString, None)) (resize (p_tpl p) n no_tpl) (p_ext p)
    (resize (p_elv p) n None) (resize (p_alv p) n None)
    (resize (p_gelv p) n (repeat None 250)) (resize (p_galv p) n (repeat None 250)).
(** p->Redshift through the pointer: a null one is UB *)
Definition redshift (r : ranked) : res Q := match snd r with Some c => Ok (c_z c) | None => UB end.

(** the threshold of linemodelpassextremaresult.cpp:77-78 *)
Definition skip_thres_absdiffz : Q := 5 # 10000.
(** linemodelpassextremaresult.cpp:84-90: the loop over the candidates of this, with its break *)
Fixpoint duplicate (zb : Q) (cs : list ranked) : res bool :=
  match cs with
  | [] => Ok false
  | c :: t => do z <- redshift c; if Qltb (Qabs (zb - z)) skip_thres_absdiffz then Ok true else duplicate zb t
  end.
(** linemodelpassextremaresult.cpp:73-95 *)
Fixpoint unique_loop (cs bs : list ranked) (keb : nat) : res (list nat) :=
  match bs with
  | [] => Ok []
  | b :: t =>
      do zb <- redshift b; do d <- duplicate zb cs; do r <- unique_loop cs t (S keb);
      Ok (if (d : bool) then r else keb :: r)
  end.
Definition getUniqueCandidates (p b : pass) : res (list nat) := unique_loop (p_cands p) (p_cands b) 0.
(** linemodelpassextremaresult.cpp:66-72 *)
Fixpoint GetRedshifts (cs : list ranked) : res (list Q) :=
  match cs with [] => Ok [] | c :: t => do z <- redshift c; do r <- GetRedshifts t; Ok (z :: r) end.

Definition set_elv (p : pass) (i : nat) (v : option Q) : res pass :=
  do l <- vset (p_elv p) i v; Ok (mkPass (p_cands p) (p_tpl p) (p_ext p) l (p_alv p) (p_gelv p) (p_galv p)).
Definition set_alv (p : pass) (i : nat) (v : option Q) : res pass :=
  do l <- vset (p_alv p) i v; Ok (mkPass (p_cands p) (p_tpl p) (p_ext p) (p_elv p) l (p_gelv p) (p_galv p)).
(** linemodelpassextremaresult.cpp:96-99 *)
Definition fillWithContinuumModelSolutionAtIndex (p : pass) (i : nat) (t : tplsol) : res pass :=
  do l <- vset (p_tpl p) i t; Ok (mkPass (p_cands p) l (p_ext p) (p_elv p) (p_alv p) (p_gelv p) (p_galv p)).
Definition set_cand (p : pass) (i : nat) (c : ranked) : res pass :=
  do l <- vset (p_cands p) i c; Ok (mkPass l (p_tpl p) (p_ext p) (p_elv p) (p_alv p) (p_gelv p) (p_galv p)).

(** linemodel.cpp:635-649: the loop over the candidates from index i on *)
Fixpoint set_loop (r : result) (zs : list ranked) (i : nat) (p : pass) : res pass :=
  match zs with
  | [] => Ok p
  | c :: t =>
      do z <- redshift c; do idx <- getIndex (r_z r) z; do l <- vget (r_lines r) idx;
      do p <- set_elv p i (l_elv l); do p <- set_alv p i (l_alv l);
      do k <- vget (r_cont r) idx; do p <- fillWithContinuumModelSolutionAtIndex p i k;
      set_loop r t (S i) p
  end.
(** linemodel.cpp:628-650 *)
Definition SetFirstPassCandidates (r : result) (p : pass) (zs : list ranked) : res pass :=
  let p := Resize p (List.length zs) in
  set_loop r zs 0 (mkPass zs (p_tpl p) (p_ext p) (p_elv p) (p_alv p) (p_gelv p) (p_galv p)).

(** linemodel.cpp:695-723: the loop over the indices of the candidates of b that are kept *)
Fixpoint combine_loop (r : result) (b : pass) (start : nat) (us : list nat) (keb : nat) (p : pass) : res pass :=
  match us with
  | [] => Ok p
  | i :: t =>
      do c <- vget (p_cands b) i; do p <- set_cand p (start + keb) c;
      do e <- vget (p_elv b) i; do p <- set_elv p (start + keb) e;
      do a <- vget (p_alv b) i; do p <- set_alv p (start + keb) a;
      do z <- redshift c; do idx <- getIndex (r_z r) z; do k <- vget (r_cont r) idx;
      do p <- fillWithContinuumModelSolutionAtIndex p (start + keb) k;
      if String.eqb (t_name k) "" then Throw TPL_NAME_EMPTY else combine_loop r b start t (S keb) p
  end.
(** linemodel.cpp:687-724; r is the result of this operator, b the candidates of the other one *)
Definition Combine_firstpass_candidates (r : result) (p b : pass) : res pass :=
  do us <- getUniqueCandidates p b;
  combine_loop r b (List.length (p_cands p)) us 0 (Resize p (List.length (p_cands p) + List.length us)).

(** one reported candidate: TLineModelResult (linemodel/linemodelextremaresult.i) and its saved line solution *)
Record reported := mkRep { x_id : string; x_cand : cand; x_tpl : tplsol; x_elv : option Q; x_alv : option Q; x_lines : linesol }.
(** linemodelextremaresult.cpp:48-53: a zero amplitude is false, a NaN is true *)
Definition updateFromContinuumModelSolution (t : tplsol) : tplsol :=
  match t_amp t with
  | Some a => if Qeq_bool a 0 then mkTS "noContinuum" (t_amp t) (t_rest t) else t
  | None => t
  end.
(** linemodel.cpp:653-680 for the candidates one by one (the constructor, linemodelextremaresult.h:80-92, copies them all first;
    it can only fail on a null pointer) *)
Fixpoint buildFirstPassExtremaResults (r : result) (cs : list ranked) : res (list reported) :=
  match cs with
  | [] => Ok []
  | (id, o) :: t =>
      do c <- match o with Some c => Ok c | None => UB end;
      do idx <- getIndex (r_z r) (c_z c); do l <- vget (r_lines r) idx; do k <- vget (r_cont r) idx;
      do rest <- buildFirstPassExtremaResults r t;
      Ok (mkRep id c (updateFromContinuumModelSolution k) (l_elv l) (l_alv l) l :: rest)
  end.

(** linemodel.cpp:600-613, linear sampling: CRange(vector) is (0, 0) for an empty vector, range.h:64-66 *)
Definition range_of (g : list Q) : range := mkRange (hd 0 g) (last g 0).
Definition SpanRedshiftWindow (g : list Q) (half step z : Q) : res (list Q) :=
  let w := snd (IntersectWith (mkRange (z - half) (z + half)) (range_of g)) in
  spanCenteredWindow_lin w z step.
(** linemodel.cpp:578-593, linear sampling: the windows are appended to the list *)
Fixpoint windows (g : list Q) (half step : Q) (cs : list ranked) : res (list (list Q)) :=
  match cs with
  | [] => Ok []
  | c :: t => do z <- redshift c; do w <- SpanRedshiftWindow g half step z; do r <- windows g half step t; Ok (w :: r)
  end.
Definition buildExtendedRedshifts (g : list Q) (half step : Q) (p : pass) : res pass :=
  do w <- windows g half step (p_cands p);
  Ok (mkPass (p_cands p) (p_tpl p) (p_ext p ++ w) (p_elv p) (p_alv p) (p_gelv p) (p_galv p)).
