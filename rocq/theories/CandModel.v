(** Model of RedshiftLibrary/src/lib/statistics/pdfcandidatesz.cpp: integration ranges of the redshift candidates
    (SetIntegrationRanges) and their ranking (SortByValSumProbaInt).  Exact rationals; a NaN redshift or
    probability is not modelled. *)
From Coq Require Import String.
From Verif Require Import Base RangeModel SortLib.
Open Scope Q_scope.

(** TCandidateZ (pdfcandidatesz.i:40-69) with its key in m_candidates: Redshift, Deltaz, ValProba, ValSumProba *)
Record cand := mkCand { cid : string; cz : Q; cdz : Q; cval : Q; csum : Q }.

(** pdfcandidatesz.cpp:87-88, default width when Deltaz == -1 (m_dzDefault = 1e-3, pdfcandidatesz.h:88) *)
Definition fix_dz (dzDefault : Q) (c : cand) : cand :=
  if Qeq_bool (cdz c) (-1) then mkCand (cid c) (cz c) (dzDefault * (1 + cz c)) (cval c) (csum c) else c.
(** pdfcandidatesz.cpp:183-185 *)
Definition halfWidth (dz : Q) : Q := 3 * dz.
(** pdfcandidatesz.cpp:90-96 *)
Definition initRange (pdf : range) (c : cand) : range :=
  snd (IntersectWith (mkRange (cz c - halfWidth (cdz c)) (cz c + halfWidth (cdz c))) pdf).

(** defaults.h:41 *)
Definition OVERLAP_THRESHOLD : Q := 3 # 10.
(** overlap / size < threshold; here overlap > 0, so a null size gives +infinity *)
Definition ratio_small (overlap size : Q) : bool :=
  if Qeq_bool size 0 then false else Qltb (overlap / size) OVERLAP_THRESHOLD.

(** one turn of the loop pdfcandidatesz.cpp:113-157 on two consecutive candidates (decreasing redshift) *)
Definition trim_step (h l : cand * range) : (cand * range) * (cand * range) * list string :=
  let '(ch, rh) := h in let '(cl, rl) := l in
  let overlap := rend rl - rbeg rh in
  if Qle_bool overlap 0 then (h, l, [])
  else if ratio_small overlap (rend rh - rbeg rh) && ratio_small overlap (rend rl - rbeg rl)
  then let mid := rend rl - (1 # 2) * overlap in
       ((ch, mkRange mid (rend rh)), (cl, mkRange (rbeg rl) mid), [])
  else (h, l, [if Qltb (cval ch) (cval cl) then cid ch else cid cl]).
Fixpoint trim_from (h : cand * range) (rest : list (cand * range)) : list (cand * range) * list string :=
  match rest with
  | [] => ([h], [])
  | l :: rest' =>
      let '(h1, l1, d) := trim_step h l in
      let '(t, ds) := trim_from l1 rest' in (h1 :: t, (d ++ ds)%list)
  end.

(** pdfcandidatesz.cpp:159-176: the kept candidates must lie in their range *)
Definition outside_own (x : cand * range) : bool :=
  Qltb (cz (fst x)) (rbeg (snd x)) || Qltb (rend (snd x)) (cz (fst x)).
Definition range_check (dups : list string) (l : list (cand * range)) : bool :=
  forallb (fun x => existsb (String.eqb (cid (fst x))) dups || negb (outside_own x)) l.

(** CPdfCandidatesZ::SetIntegrationRanges, pdfcandidatesz.cpp:77-179.  The result lists the candidates with their
    ranges by decreasing redshift, and the duplicates.  [keysort] stands for std::sort on the keys (106-109): any
    function ordering the candidates by decreasing redshift.  With no candidate, [end() - 1] is before begin() *)
Definition SetIntegrationRanges (keysort : list cand -> list cand) (dzDefault : Q) (pdf : range) (cs : list cand)
  : res (list (cand * range) * list string) :=
  let cs' := map (fix_dz dzDefault) cs in
  match map (fun c => (c, initRange pdf c)) (keysort cs') with
  | [] => UB
  | h :: t => let '(out, dups) := trim_from h t in
              if range_check dups out then Ok (out, dups) else Throw INTERNAL_ERROR
  end.

(** CPdfCandidatesZ::SortByValSumProbaInt, pdfcandidatesz.cpp:235-251: std::stable_sort of the reversed sequence by
    increasing ValSumProba *)
Definition SortByValSumProbaInt (cs : list cand) : list cand :=
  rev (isort (fun a b => Qltb (csum a) (csum b)) (rev cs)).

(** pdfcandidatesz.cpp:203-214: the duplicates get a null integrated probability, the others the integral [sum] *)
Definition assign_sums (dups : list string) (sum : cand -> Q) (cs : list cand) : list cand :=
  map (fun c => mkCand (cid c) (cz c) (cdz c) (cval c)
                 (if existsb (String.eqb (cid c)) dups then 0 else sum c)) cs.
