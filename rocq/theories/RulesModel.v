(** Model of the line-amplitude rules:
    RedshiftLibrary/src/lib/line/{rule,regulament,ruleOIIRatioRange,rule2singlelinesamplitude,
    ruleStrongHigherThanWeak}.cpp and of the element amplitudes they act on
    (linemodel/elementparam.{h,cpp}, linemodel/lmeltlistvector.cpp).
    Amplitudes are [option Q]: [None] stands for NaN (an infinite quotient, possible only when a line with
    a null nominal amplitude has a non-null amplitude, is not distinguished from NaN). Rounding and log
    messages are not modelled. *)
From Coq Require Import String.
From Verif Require Import Base.
Open Scope Q_scope.

(** CLine::EType, CLine::EForce (line/line.h) *)
Inductive ltype := Emission | Absorption | AllTypes.
Inductive force := Weak | Strong | OtherForce.
Definition ltype_eqb (a b : ltype) : bool :=
  match a, b with Emission, Emission | Absorption, Absorption | AllTypes, AllTypes => true | _, _ => false end.
Definition is_weak (f : force) : bool := match f with Weak => true | _ => false end.
Definition is_strong (f : force) : bool := match f with Strong => true | _ => false end.

(** One line of an element: TLineModelElementParam::m_Lines[i], m_NominalAmplitudes[i],
    m_FittedAmplitudes[i], m_FittedAmplitudesStd[i] (elementparam.h), CLineModelElement::
    m_OutsideLambdaRangeList[i] (element.h:194) and CLMEltListVector::m_globalOutsideLambdaRangeList[e][i]. *)
Record line := mkLine
  { lname : string; lforce : force; nom : Q; fit : option Q; fstd : option Q; lout : bool; lgout : bool }.
(** One element: type (that of its first line, elementparam.cpp:68), lines, m_absLinesLimit,
    m_OutsideLambdaRange and m_globalOutsideLambdaRange. m_SignFactors is -1 on the lines of an element that is
    not of emission type (elementparam.cpp:87-88). *)
Record elt := mkElt { etype : ltype; elines : list line; eabs : Q; eout : bool; egout : bool }.

Definition set_fit (l : line) (v : option Q) : line :=
  mkLine (lname l) (lforce l) (nom l) v (fstd l) (lout l) (lgout l).
Definition set_fit_std (l : line) (v s : option Q) : line :=
  mkLine (lname l) (lforce l) (nom l) v s (lout l) (lgout l).
Definition set_lines (e : elt) (ls : list line) : elt := mkElt (etype e) ls (eabs e) (eout e) (egout e).

(** Float64 operations with NaN *)
Definition omul (a b : option Q) : option Q :=
  match a, b with Some x, Some y => Some (x * y) | _, _ => None end.
Definition ogt (a b : option Q) : bool :=
  match a, b with Some x, Some y => Qltb y x | _, _ => false end.
(** std::max(0.0, limit) *)
Definition max0 (x : Q) : Q := if Qltb 0 x then x else 0.

(** TLineModelElementParam::LimitFittedAmplitude, elementparam.cpp:244-260 *)
Definition limitFittedAmplitude (i : nat) (limit : option Q) (e : elt) : res (bool * elt) :=
  do l <- vget (elines e) i;
  match fit l, limit with
  | Some f, Some lim =>
      if Qltb lim f
      then let ref := if Qeq_bool (nom l) 0 then None else Some (max0 lim / nom l) in
           Ok (true, set_lines e (map (fun k => set_fit k (omul (Some (nom k)) ref)) (elines e)))
      else Ok (false, e)
  | _, _ => Ok (false, e)
  end.

(** TLineModelElementParam::setFittedAmplitude, elementparam.h:160-171 *)
Definition setFittedAmplitude (e : elt) (a s : option Q) (l : line) : line :=
  let f := omul a (Some (nom l)) in
  let f' := if negb (ltype_eqb (etype e) Emission) && Qltb 0 (eabs e) && ogt f (Some (eabs e))
            then Some (eabs e) else f in
  set_fit_std l f' (omul s (Some (nom l))).

(** CLMEltListVector::SetElementAmplitude, lmeltlistvector.cpp:257-262, and
    TLineModelElementParam::setAmplitudes, elementparam.h:173-194 *)
Definition setAmplitudes (a s : option Q) (e : elt) : elt :=
  match a with
  | None => set_lines e (map (fun l => set_fit_std l None None) (elines e))
  | Some _ =>
      if egout e then set_lines e (map (fun l => set_fit_std l None None) (elines e))
      else set_lines e (map (fun l => if lgout l then set_fit_std l None None
                                      else setFittedAmplitude e a s l) (elines e))
  end.

(** name.find(tag) != npos *)
Definition contains (tag name : string) : bool :=
  match index 0 tag name with Some _ => true | None => false end.

Fixpoint find_index {A} (p : A -> bool) (l : list A) : option nat :=
  match l with
  | [] => None
  | x :: t => if p x then Some O else option_map S (find_index p t)
  end.

(** TLineModelElementParam::getLineIndex(tag), element.cpp:89-103 *)
Definition getLineIndex (tag : string) (e : elt) : option nat :=
  find_index (fun l => contains tag (lname l)) (elines e).

(** CLMEltListVector::findElementIndex(tag, type), lmeltlistvector.cpp:220-237 *)
Definition findElementIndex (tag : string) (ty : ltype) (es : list elt) : option (nat * nat) :=
  let p e := match getLineIndex tag e with
             | Some _ => ltype_eqb ty AllTypes || ltype_eqb (etype e) ty
             | None => false end in
  match find_index p es with
  | Some i => match nth_error es i with
              | Some e => option_map (fun j => (i, j)) (getLineIndex tag e)
              | None => None end
  | None => None
  end.

Definition upd_elt (es : list elt) (i : nat) (f : elt -> elt) : res (list elt) :=
  do e <- vget es i; vset es i (f e).

Definition vget_line (es : list elt) (i j : nat) : res line :=
  do e <- vget es i; vget (elines e) j.

(** CRuleRatioRange::Correct, ruleOIIRatioRange.cpp:76-159. *)
Definition weight (er : option Q) (k : Q) : option Q :=
  match er with
  | None => None
  | Some e => Some (if Qeq_bool e 0 then 0 else 1 / (e * e * k * k))
  end.
(** lines 140-145: (amp1*w1 + amp2*w2*R) / (w1 + w2) *)
Definition corrected (R a1 : Q) (er1 : option Q) (a2 : Q) (er2 : option Q) : option Q :=
  match weight er1 1, weight er2 R with
  | Some w1, Some w2 => if Qeq_bool (w1 + w2) 0 then None else Some ((a1 * w1 + a2 * w2 * R) / (w1 + w2))
  | _, _ => None
  end.
Definition odiv (a : option Q) (b : Q) : option Q :=
  match a with Some x => if Qeq_bool b 0 then None else Some (x / b) | None => None end.

Definition ruleRatioRange (ty : ltype) (tagA tagB : string) (R : Q) (es : list elt) : res (list elt) :=
  match findElementIndex tagA ty es, findElementIndex tagB ty es with
  | Some (iA, jA), Some (iB, jB) =>
      if Nat.eqb iA iB then Ok es else
      do eA <- vget es iA; do eB <- vget es iB;
      if eout eA || eout eB then Ok es else
      do lA <- vget_line es iA jA; do lB <- vget_line es iB jB;
      match fit lA, fit lB with
      | Some a, Some b =>
          if Qltb (Qabs (b * R)) (Qabs a)
          then let c := corrected R a (fstd lA) b (fstd lB) in
               do es1 <- upd_elt es iA (setAmplitudes c (fstd lA));
               upd_elt es1 iB (setAmplitudes (odiv c R) (fstd lB))
          else if Qltb (Qabs (a * R)) (Qabs b)
          then let c := corrected R b (fstd lB) a (fstd lA) in
               do es1 <- upd_elt es iB (setAmplitudes c (fstd lB));
               upd_elt es1 iA (setAmplitudes (odiv c R) (fstd lA))
          else Ok es
      | _, _ => Ok es
      end
  | _, _ => Ok es
  end.

(** CRule2SingleLinesAmplitude::Correct, rule2singlelinesamplitude.cpp:70-188.
    [maxB == std::min(maxB, ampB)]: std::min returns ampB when ampB < maxB, maxB otherwise (NaN ampB included,
    but then LimitFittedAmplitude does nothing). *)
Definition rule2SingleLines (ty : ltype) (tagA tagB : string) (coef : Q) (es : list elt) : res (list elt) :=
  match findElementIndex tagA ty es, findElementIndex tagB ty es with
  | Some (iA, jA), Some (iB, jB) =>
      do eA <- vget es iA; do eB <- vget es iB;
      if Nat.ltb 1 (length (elines eA)) || Nat.ltb 1 (length (elines eB)) || Nat.eqb iA iB then Ok es else
      if eout eA then Ok es else
      do lA <- vget_line es iA jA; do lB <- vget_line es iB jB;
      match fit lA, fit lB with
      | Some a, Some b =>
          if Qle_bool a 0 && Qle_bool b 0 then Ok es
          else if Qltb b (coef * a) then Ok es
          else do r <- limitFittedAmplitude jB (Some (coef * a)) eB; vset es iB (snd r)
      | _, _ => Ok es
      end
  | _, _ => Ok es
  end.

(** CRuleStrongHigherThanWeak::FindLowestStrongLineIndex, ruleStrongHigherThanWeak.cpp:214-243; the state of the
    loop is the amplitude found so far (None: INFINITY, no line found) and the standard deviation of that line,
    which Correct reads right after the search (lines 79-84). *)
Definition lowestStrongLine (best : option (Q * option Q)) (l : line) : option (Q * option Q) :=
  if lout l then best
  else if is_strong (lforce l) then
    match fit l with
    | Some a => match best with
                | None => Some (a, fstd l)
                | Some (m, _) => if Qltb a m then Some (a, fstd l) else best end
    | None => best
    end
  else best.
Definition lowestStrong (ty : ltype) (es : list elt) : option (Q * option Q) :=
  fold_left (fun best e => if ltype_eqb (etype e) ty then fold_left lowestStrongLine (elines e) best else best)
            es None.

(** correctLineModelElement, ruleStrongHigherThanWeak.cpp:103-119; [n] lines remain from index [i] *)
Fixpoint correctElement (n i : nat) (cap : Q) (e : elt) : res elt :=
  match n with
  | O => Ok e
  | S n' =>
      do l <- vget (elines e) i;
      if lout l then correctElement n' (S i) cap e
      else if is_weak (lforce l)
      then do r <- limitFittedAmplitude i (Some cap) e; correctElement n' (S i) cap (snd r)
      else correctElement n' (S i) cap e
  end.
Fixpoint rmap {A B} (f : A -> res B) (l : list A) : res (list B) :=
  match l with [] => Ok [] | x :: t => do y <- f x; do r <- rmap f t; Ok (y :: r) end.

(** CRuleStrongHigherThanWeak::Correct, ruleStrongHigherThanWeak.cpp:69-101, and maxAmplitude, 121-153 *)
Definition ruleStrongWeak (ty : ltype) (es : list elt) : res (list elt) :=
  match lowestStrong ty es with
  | None => Ok es
  | Some (_, None) => Throw INTERNAL_ERROR
  | Some (a, Some er) =>
      rmap (fun e => if ltype_eqb (etype e) ty
                     then correctElement (length (elines e)) 0 (a + er) e else Ok e) es
  end.

(** the rules of CRegulament::CreateRulesFromJSONFiles, regulament.cpp:72-173 *)
Inductive rule :=
| TwoSingle (ty : ltype) (tagA tagB : string) (coef : Q)
| RatioRange (ty : ltype) (tagA tagB : string) (coef : Q)
| StrongWeak (ty : ltype).
Definition rule_name (r : rule) : string :=
  match r with
  | TwoSingle _ _ _ _ => "balmersingle" | RatioRange _ _ _ _ => "ratioRange" | StrongWeak _ => "strongWeak"
  end%string.
Definition emission_balmer : list rule :=
  [ TwoSingle Emission "Halpha" "Hbeta" ((1 / (286 # 100)) * (11 # 10));
    TwoSingle Emission "Hbeta" "Hgamma" ((47 # 100) * (11 # 10));
    TwoSingle Emission "Hgamma" "Hdelta" (11 # 10);
    TwoSingle Emission "Hdelta" "H8" (11 # 10);
    TwoSingle Emission "H8" "H9" (11 # 10);
    TwoSingle Emission "H9" "H10" (11 # 10);
    TwoSingle Emission "H10" "H11" (11 # 10) ]%string.
Definition absorption_balmer : list rule :=
  [ TwoSingle Emission "HbetaA" "HgammaA" (11 # 10);
    TwoSingle Emission "HgammaA" "HdeltaA" (11 # 10);
    TwoSingle Emission "HdeltaA" "H8A" (11 # 10);
    TwoSingle Emission "H8A" "H9A" (11 # 10);
    TwoSingle Emission "H9A" "H10A" (11 # 10);
    TwoSingle Emission "H10A" "H11A" (11 # 10) ]%string.
Definition regulament : list rule :=
  (emission_balmer ++ absorption_balmer ++
   [ RatioRange Emission "[OII]3726" "[OII]3729" (25 # 10);
     StrongWeak Emission; StrongWeak Absorption;
     RatioRange Emission "[CIII]1907" "[CIII]1909" 2 ])%list%string.

(** CRule::Correct of each class *)
Definition correct (r : rule) (es : list elt) : res (list elt) :=
  match r with
  | TwoSingle ty a b c => rule2SingleLines ty a b c es
  | RatioRange ty a b c => ruleRatioRange ty a b c es
  | StrongWeak ty => ruleStrongWeak ty es
  end.

(** CRegulament::EnableRulesAccordingToParameters, regulament.cpp:175-189 (rules start enabled,
    regulament.cpp:74; Check of the rules always returns false) *)
Definition enabled (option : string) (r : rule) : bool :=
  if String.eqb option "no" then true else String.eqb option "all" || contains (rule_name r) option.

(** CRule::Apply (rule.cpp), CRegulament::Apply, regulament.cpp:57-65 *)
Fixpoint applyAll (option : string) (rs : list rule) (es : list elt) : res (list elt) :=
  match rs with
  | [] => Ok es
  | r :: t => if enabled option r then do es' <- correct r es; applyAll option t es'
              else applyAll option t es
  end.
(** CRulesManager::applyRules, linemodel/rulesmanager.cpp:71-79 *)
Definition applyRules (option : string) (es : list elt) : res (list elt) :=
  if String.eqb option "no" then Ok es else applyAll option regulament es.
